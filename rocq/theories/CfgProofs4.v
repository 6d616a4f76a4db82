(** How control passes from one instruction to the next in the built graph. *)
From Verif Require Import ListLemmas.
From Verif Require Export CfgProofs3.
From Coq Require Import ZifyBool ZifyNat Permutation.

Definition sane (st : cfg) : Prop := good st /\ 0 <= c_last st /\ forall x, kind_of st x = Some KBlock <-> instructions st x <> [].
(** Ends of an edge: the block that ends (starts) with an instruction, or a node that
    is no block. *)
Definition special (st : cfg) (n : Z) : Prop := exists k, kind_of st n = Some k /\ k <> KBlock.
Definition is_src (st : cfg) (s : nat + Z) (b : Z) : Prop :=
  match s with inl x => exists l, instructions st b = l ++ [x] | inr n => b = n /\ special st n end.
Definition is_tgt (st : cfg) (s : nat + Z) (b : Z) : Prop :=
  match s with inl x => exists l, instructions st b = x :: l | inr n => b = n /\ special st n end.
Definition arrow (st : cfg) (s t : nat + Z) : Prop := exists b b', is_src st s b /\ is_tgt st t b' /\ edg st b b'.
Definition adjacent (st : cfg) (x y : nat) : Prop := exists b l1 l2, instructions st b = l1 ++ x :: y :: l2.
Definition keeps (P : nat -> Prop) (st st' : cfg) : Prop :=
  (forall x y, adjacent st x y -> adjacent st' x y \/ arrow st' (inl x) (inl y)) /\
  (forall s t, (forall x, s = inl x -> P x) -> arrow st s t -> arrow st' s t) /\
  (forall n k, kind_of st n = Some k -> kind_of st' n = Some k).
Definition any (x : nat) : Prop := True.

Lemma keeps_refl P st : keeps P st st. Proof. split; [auto|]. split; auto. Qed.
Lemma keeps_weak (P Q : nat -> Prop) st st' : (forall x, Q x -> P x) -> keeps P st st' -> keeps Q st st'.
Proof. intros H (A & B & C). split; [exact A|]. split; [|exact C]. intros s t X. apply B. intros x E. apply H, X, E. Qed.
Lemma keeps_trans a b c : keeps any a b -> keeps any b c -> keeps any a c.
Proof. intros (A & B & C) (A' & B' & C'). split; [|split; [|auto]].
  - intros x y H. destruct (A x y H) as [H'|H']; [destruct (A' x y H') as [X|X]; auto|]. right. apply B'; [intros; exact I|exact H'].
  - intros s t X H. apply B'; [exact X|]. apply B; [exact X|exact H]. Qed.
(** Instructions of old blocks and old edges stay. *)
Lemma keeps_more st st' : (forall x, instructions st x <> [] -> instructions st' x = instructions st x) -> (forall x y, edg st x y -> edg st' x y) ->
  (forall n k, kind_of st n = Some k -> kind_of st' n = Some k) -> keeps any st st'.
Proof. intros H1 H2 H3. split; [|split; [|exact H3]].
  - intros x y (b & l1 & l2 & E). left. exists b, l1, l2. rewrite H1; [exact E|]. rewrite E. destruct l1; discriminate.
  - intros s t _ (b & b' & S & T & E). exists b, b'. split; [|split; [|auto]].
    + destruct s as [x|n]; [|destruct S as (-> & k & K & Nk); split; [reflexivity|exists k; auto]]. destruct S as (l & El). exists l. rewrite H1; [exact El|rewrite El; destruct l; discriminate].
    + destruct t as [x|n]; [|destruct T as (-> & k & K & Nk); split; [reflexivity|exists k; auto]]. destruct T as (l & El). exists l. rewrite H1; [exact El|rewrite El; discriminate]. Qed.
Lemma keeps_same st st' : same st st' -> (forall x y, edg st x y -> edg st' x y) -> keeps any st st'.
Proof. intros S E. apply keeps_more; [intros x _; apply same_inst, S|exact E|]. intros n k. rewrite (same_kind _ _ _ S). auto. Qed.
Lemma sane_same st st' : sane st -> good st' -> same st st' -> sane st'.
Proof. intros (G & L & K) G' S. split; [exact G'|]. pose proof S as (_ & Sl & _). rewrite Sl. split; [exact L|]. intros x. rewrite (same_kind _ _ _ S), (same_inst _ _ _ S). apply K. Qed.

Lemma new_node_inv st K l st' n : sane st -> (K <> KBlock -> l = []) -> new_node st K l = Ok (st', n) ->
  n = c_last st + 1 /\ sane st' /\ keeps any st st' /\ kind_of st' n = Some K /\ instructions st' n = l /\ nodes st' = nodes st ++ [n] /\ (forall x y, edg st' x y <-> edg st x y) /\
  (forall x, instructions st' x = if x =? n then l else instructions st x) /\ (forall x, x <> n -> kind_of st' x = kind_of st x) /\ c_pending st' = c_pending st.
Proof. intros (G & L & Kb) Kl E. assert (Nl : K = KBlock -> l <> []) by (intros -> ->; discriminate E).
  destruct (new_node_ok st K l G Nl L) as (st1 & E1 & G1 & L1 & P1 & N1 & Ed1 & I1 & K1). rewrite E1 in E. injection E as <- <-. pose proof (fresh st G L) as F. destruct (outside st (c_last st + 1) G F) as [O1 O2].
  split; [reflexivity|]. split.
  { split; [exact G1|]. split; [lia|]. intros x. rewrite K1, I1. destruct (Z.eqb_spec x (c_last st + 1)) as [->|Nx]; [|apply Kb]. split; [intros H; injection H as ->; auto|]. intros H. destruct K; try reflexivity; exfalso; apply H, Kl; discriminate. }
  split. { apply keeps_more; [intros x Hx; rewrite I1; destruct (Z.eqb_spec x (c_last st + 1)) as [->|]; [congruence|reflexivity]|intros x y; apply Ed1|].
    intros x k H. rewrite K1. destruct (Z.eqb_spec x (c_last st + 1)) as [->|]; [congruence|exact H]. }
  split; [rewrite K1, Z.eqb_refl; reflexivity|]. split; [rewrite I1, Z.eqb_refl; reflexivity|]. split; [exact N1|]. split; [exact Ed1|]. split; [exact I1|]. split; [|exact P1].
  intros x Hx. rewrite K1. destruct (Z.eqb_spec x (c_last st + 1)); [contradiction|reflexivity]. Qed.
Lemma edge_add_inv st u v st' : sane st -> edge_add st u v = Ok st' -> sane st' /\ keeps any st st' /\ same st st' /\ edg st' u v /\ (forall x y, edg st x y -> edg st' x y).
Proof. intros Sn E. pose proof Sn as (G & _). assert (H : In u (nodes st) /\ In v (nodes st) /\ ~ edg st u v).
  { unfold edge_add in E. destruct (add_edge (c_graph st) u v) as [g|] eqn:Eg; [|discriminate]. unfold add_edge in Eg.
    destruct (dget (node_neighbors (c_graph st)) u) as [nu|] eqn:Eu; [|discriminate]. destruct (dget (node_incidence (c_graph st)) v) as [iv|] eqn:Ev; [|discriminate].
    destruct (dmem (node_neighbors (c_graph st)) v) eqn:Em; [|discriminate]. destruct (zmem v nu && zmem u iv) eqn:Z0; [discriminate|].
    assert (Nu : In u (nodes st)) by (unfold nodes, g_nodes; apply dget_some_in; eauto).
    assert (Nv : In v (nodes st)) by (unfold nodes, g_nodes; unfold dmem in Em; destruct (dget (node_neighbors (c_graph st)) v) eqn:X; [apply dget_some_in; eauto|discriminate]).
    split; [exact Nu|]. split; [exact Nv|]. intros X. assert (In v nu) by (unfold edg, edge, nb in X; rewrite Eu in X; exact X).
    assert (In u iv). { destruct (good_wf _ G) as (_ & _ & W3 & _). apply W3 in X. unfold inc in X. rewrite Ev in X. exact X. }
    assert (zmem v nu = true) by (apply zmem_in; assumption). assert (zmem u iv = true) by (apply zmem_in; assumption). rewrite H1, H2 in Z0. discriminate. }
  destruct H as (U & V & N). destruct (edge_add_ok st u v G U V N) as (st1 & E1 & G1 & S1 & H1). rewrite E1 in E. injection E as <-.
  split; [eapply sane_same; eauto|]. split; [apply keeps_same; [exact S1|intros; apply H1; auto]|]. split; [exact S1|]. split; [apply H1; auto|]. intros; apply H1; auto. Qed.
Lemma edge_once_inv st u v st' : sane st -> edge_add_once st u v = Ok st' -> sane st' /\ keeps any st st' /\ same st st' /\ edg st' u v /\ (forall x y, edg st x y -> edg st' x y).
Proof. intros Sn. unfold edge_add_once. destruct (has_edge (c_graph st) u v) eqn:H; [|now apply edge_add_inv]. intros E. injection E as <-. apply has_edge_iff in H. split; [exact Sn|]. split; [apply keeps_refl|]. split; [apply same_refl|]. auto. Qed.

(** Cutting a block. *)
Lemma cut_keeps st st' split j : sane st -> In split (nodes st) -> (0 < j < length (instructions st split))%nat -> good st' -> c_last st' = c_last st + 1 ->
  (forall x, instructions st' x = if x =? c_last st + 1 then firstn j (instructions st split) else if x =? split then skipn j (instructions st split) else instructions st x) ->
  (forall x, kind_of st' x = if x =? c_last st + 1 then Some KBlock else kind_of st x) ->
  (forall x y, edg st' x y <-> (edg st x y /\ y <> split) \/ (edg st x split /\ y = c_last st + 1) \/ (x = c_last st + 1 /\ y = split)) -> sane st' /\ keeps any st st'.
Proof. intros (G & L & Kb) Sp J G' L' I' K' E'. pose proof (fresh st G L) as F. destruct (outside st (c_last st + 1) G F) as [O1 O2]. set (up := c_last st + 1) in *.
  assert (Us : up <> split) by (intros X; apply F; rewrite X; exact Sp).
  assert (Iu : instructions st' up = firstn j (instructions st split)) by (rewrite I', Z.eqb_refl; reflexivity).
  assert (Is : instructions st' split = skipn j (instructions st split)) by (rewrite I'; destruct (Z.eqb_spec split up); [congruence|]; rewrite Z.eqb_refl; reflexivity).
  assert (Io : forall x, x <> up -> x <> split -> instructions st' x = instructions st x) by (intros x X Y; rewrite I'; destruct (Z.eqb_spec x up); [congruence|]; destruct (Z.eqb_spec x split); [congruence|reflexivity]).
  assert (Nu : forall b, instructions st b <> [] -> b <> up) by (intros b H ->; congruence).
  assert (Sg : forall n, special st n -> special st' n /\ n <> split /\ n <> up).
  { intros n (k & Hk & Nk). assert (n <> up) by (intros ->; congruence). assert (n <> split). { intros ->. assert (X : kind_of st split = Some KBlock) by (apply Kb; intros X; rewrite X in J; cbn in J; lia). congruence. }
    split; [|auto]. exists k. rewrite K'. destruct (Z.eqb_spec n up); [congruence|auto]. }
  split.
  { split; [exact G'|]. split; [lia|]. intros x. rewrite K'. destruct (Z.eqb_spec x up) as [->|X].
    - rewrite Iu. split; [|reflexivity]. intros _ X. apply (f_equal (@length nat)) in X. rewrite firstn_length in X. cbn in X. lia.
    - destruct (Z.eq_dec x split) as [->|Y]; [|rewrite Io by assumption; apply Kb]. rewrite Is. split; intros _; [|apply Kb; intros X1; rewrite X1 in J; cbn in J; lia].
      intros X1. apply (f_equal (@length nat)) in X1. rewrite skipn_length in X1. cbn in X1. lia. }
  split; [|split].
  - intros x y (b & l1 & l2 & Eb). destruct (Z.eq_dec b split) as [->|Nb]; [|left; exists b, l1, l2; rewrite Io; [exact Eb|apply Nu; rewrite Eb; destruct l1; discriminate|exact Nb]].
    pose proof (firstn_skipn j (instructions st split)) as FS. destruct (Nat.lt_trichotomy j (S (length l1))) as [H|[H|H]].
    + left. exists split, (skipn j l1), l2. rewrite Is, Eb, skipn_app. replace (j - length l1)%nat with 0%nat by lia. reflexivity.
    + right. exists up, split. split; [|split].
      * exists l1. rewrite Iu, Eb, firstn_app, firstn_all2 by lia. replace (j - length l1)%nat with 1%nat by lia. reflexivity.
      * exists l2. rewrite Is, Eb, skipn_app, skipn_all2 by lia. replace (j - length l1)%nat with 1%nat by lia. reflexivity.
      * apply E'. auto.
    + left. destruct (j - length l1)%nat as [|[|m]] eqn:Em; try lia. exists up, l1, (firstn m l2). rewrite Iu, Eb, firstn_app, firstn_all2 by lia. rewrite Em. reflexivity.
  - intros s t _ (b & b' & S & T & E).
    assert (S' : is_src st' s b). { destruct s as [x|n]; cbn [is_src] in *.
      - destruct S as (l & El). destruct (Z.eq_dec b split) as [->|Nb]; [|exists l; rewrite Io; [exact El|apply Nu; rewrite El; destruct l; discriminate|exact Nb]].
        exists (skipn j l). rewrite Is, El, skipn_app. rewrite El, app_length in J. cbn in J. replace (j - length l)%nat with 0%nat by lia. reflexivity.
      - destruct S as [-> S]. split; [reflexivity|]. apply Sg, S. }
    destruct (Z.eq_dec b' split) as [->|Nb].
    + exists b, up. split; [exact S'|]. split; [|apply E'; auto]. destruct t as [x|n]; cbn [is_tgt] in *.
      * destruct T as (l & El). destruct j as [|m]; [lia|]. exists (firstn m l). rewrite Iu, El. reflexivity.
      * destruct T as [-> T]. exfalso. apply (proj1 (proj2 (Sg n T))). reflexivity.
    + exists b, b'. split; [exact S'|]. split; [|apply E'; auto]. destruct t as [x|n]; cbn [is_tgt] in *.
      * destruct T as (l & El). exists l. rewrite Io; [exact El|apply Nu; rewrite El; discriminate|exact Nb].
      * destruct T as [-> T]. split; [reflexivity|]. apply Sg, T.
  - intros n k H. rewrite K'. destruct (Z.eqb_spec n up) as [->|]; [congruence|exact H]. Qed.
Lemma split_inv st split branch i st' : sane st -> In split (nodes st) -> In i (instructions st split) -> split_node st split branch i = Ok st' -> sane st' /\ keeps any st st'.
Proof. intros Sn Sp Ii. pose proof Sn as (G & L & _). unfold split_node. destruct (nindex_ok i _ Ii) as (j & Ej & Lj & _). rewrite Ej. cbn [bind]. destruct j as [|j].
  - cbn [bind]. intros E. destruct (edge_add_inv _ _ _ _ Sn E) as (A & B & _). auto.
  - destruct (cut_ok st split (S j) G Sp ltac:(lia) L) as (st1 & E1 & G1 & L1 & P1 & N1 & I1 & K1 & Ed1). cbv zeta in E1. rewrite E1. cbn [bind].
    destruct (cut_keeps st st1 split (S j) Sn Sp ltac:(lia) G1 L1 I1 K1 Ed1) as [Sn1 Kp1]. intros E. destruct (edge_add_inv _ _ _ _ Sn1 E) as (A & B & _). split; [exact A|]. eapply keeps_trans; eassumption. Qed.
Lemma tail_inv p st cb b i c st' cb' : sane st -> In b (nodes st) -> branch_tail p st cb b i c 2 = Ok (st', cb') -> sane st' /\ keeps any st st' /\
  (branch_to p c = None -> ci_link c = true -> exists u, cb' = Some u /\ kind_of st' u = Some KUnknown /\ edg st' b u /\ instructions st' b = instructions st b) /\
  (branch_to p c <> None -> ci_link c = true -> cb' = Some b) /\ (ci_link c = false -> cb' = cb).
Proof. intros Sn Bn. pose proof (fresh st (proj1 Sn) (proj1 (proj2 Sn))) as F. unfold branch_tail. destruct (branch_to p c) as [t|] eqn:Bt.
  - destruct (node_with_inst st t) as [s|] eqn:Nw.
    + apply node_with_inst_some in Nw as [Ns It]. destruct (split_node st s b t) as [st1|] eqn:E1; [|discriminate]. cbn [bind]. intros E. injection E as <- <-. destruct (split_inv _ _ _ _ _ Sn Ns It E1) as [A B].
      split; [exact A|]. split; [exact B|]. split; [congruence|]. split; [intros _ ->; reflexivity|intros ->; reflexivity].
    + cbn [bind]. intros E. injection E as <- <-. split; [exact Sn|]. split; [apply keeps_more; auto|]. split; [congruence|]. split; [intros _ ->; reflexivity|intros ->; reflexivity].
  - destruct (new_node st KUnknown []) as [[st1 u]|] eqn:E1; [|discriminate]. cbn [bind]. destruct (new_node_inv _ _ _ _ _ Sn ltac:(auto) E1) as (-> & Sn1 & K1 & Ku & Iu & N1 & Ed1 & I1 & Kd1 & _).
    destruct (edge_add st1 b (c_last st + 1)) as [st2|] eqn:E2; [|discriminate]. cbn [bind]. destruct (edge_add_inv _ _ _ _ Sn1 E2) as (Sn2 & K2 & S2 & Eb & Ed2).
    destruct (edge_add st2 (c_last st + 1) 2) as [st3|] eqn:E3; [|discriminate]. cbn [bind]. destruct (edge_add_inv _ _ _ _ Sn2 E3) as (Sn3 & K3 & S3 & _ & Ed3).
    intros E. injection E as <- <-. split; [exact Sn3|]. split; [eapply keeps_trans; [exact K1|eapply keeps_trans; eassumption]|]. split; [|split; [congruence|intros ->; reflexivity]].
    intros _ ->. exists (c_last st + 1). split; [reflexivity|]. split; [rewrite (same_kind _ _ _ S3), (same_kind _ _ _ S2); exact Ku|]. split; [apply Ed3, Eb|]. rewrite (same_inst _ _ _ S3), (same_inst _ _ _ S2), I1. destruct (Z.eqb_spec b (c_last st + 1)) as [->|]; [contradiction|reflexivity]. Qed.

Lemma last_branch_inst p st st' b : instructions st' b = instructions st b -> last_is_branch p st' b = last_is_branch p st b.
Proof. intros E. unfold last_is_branch. rewrite E. reflexivity. Qed.
Lemma conditional_inv p st k c cb lc st' b lc' : sane st -> In cb (nodes st) -> dget (c_pending st) (Z.of_nat k) = None -> branch_conditional p st k c cb lc = Ok (st', (b, lc')) ->
  sane st' /\ keeps any st st' /\ instructions st' b = [k] /\ instructions st' cb = instructions st cb /\
  if ci_cond c =? cond_always then lc' = None /\ (last_is_branch p st cb = false -> edg st' cb b) /\ (forall x, lc = Some x -> edg st' x b)
  else exists n, lc' = Some n /\ kind_of st' n = Some KCond /\ edg st' n b /\ (last_is_branch p st cb = false -> edg st' cb n) /\ (forall x, lc = Some x -> edg st' x n).
Proof. intros Sn Cb Pn. unfold branch_conditional. destruct (new_node st KBlock [k]) as [[st1 b1]|] eqn:E1; [|discriminate]. cbn [bind].
  destruct (new_node_inv _ _ _ _ _ Sn ltac:(intros X; destruct (X eq_refl)) E1) as (B1 & Sn1 & K1 & _ & Ib & N1 & Ed1 & I1 & Kd1 & P1).
  pose proof (fresh st (proj1 Sn) (proj1 (proj2 Sn))) as F. assert (C1 : instructions st1 cb = instructions st cb). { rewrite I1. destruct (Z.eqb_spec cb b1) as [->|]; [rewrite B1 in Cb; contradiction|reflexivity]. }
  destruct (ci_cond c =? cond_always).
  - assert (H2 : forall st2, (if last_is_branch p st1 cb then Ok st1 else edge_add st1 cb b1) = Ok st2 -> sane st2 /\ keeps any st1 st2 /\ same st1 st2 /\ (last_is_branch p st cb = false -> edg st2 cb b1)).
    { intros st2. rewrite (last_branch_inst p _ _ _ C1). destruct (last_is_branch p st cb); intros E.
      - injection E as <-. split; [auto|]. split; [apply keeps_refl|]. split; [apply same_refl|discriminate].
      - destruct (edge_add_inv _ _ _ _ Sn1 E) as (A & B & C & D & _). auto. }
    destruct (if last_is_branch p st1 cb then Ok st1 else edge_add st1 cb b1) as [st2|] eqn:E2; [|discriminate]. cbn [bind]. destruct (H2 st2 eq_refl) as (Sn2 & K2 & S2 & D2). clear H2.
    assert (H3 : forall st3, match lc with Some lc => edge_add_once st2 lc b1 | None => Ok st2 end = Ok st3 -> sane st3 /\ keeps any st2 st3 /\ same st2 st3 /\ (forall x, lc = Some x -> edg st3 x b1) /\ forall x y, edg st2 x y -> edg st3 x y).
    { intros st3. destruct lc as [x|]; intros E.
      - destruct (edge_once_inv _ _ _ _ Sn2 E) as (A & B & C & D & D'). split; [auto|]. split; [auto|]. split; [auto|]. split; [congruence|auto].
      - injection E as <-. split; [auto|]. split; [apply keeps_refl|]. split; [apply same_refl|]. split; [discriminate|auto]. }
    destruct (match lc with Some lc => edge_add_once st2 lc b1 | None => Ok st2 end) as [st3|]; [|discriminate]. cbn [bind]. destruct (H3 st3 eq_refl) as (Sn3 & K3 & S3 & D3 & D3').
    intros E. injection E as <- <- <-. split; [exact Sn3|]. split; [eapply keeps_trans; [exact K1|]; eapply keeps_trans; eassumption|]. rewrite !(same_inst _ _ _ S3), !(same_inst _ _ _ S2). split; [exact Ib|]. split; [exact C1|]. auto.
  - destruct (new_node st1 KCond []) as [[st2 n]|] eqn:E2; [|discriminate]. cbn [bind]. destruct (new_node_inv _ _ _ _ _ Sn1 ltac:(auto) E2) as (B2 & Sn2 & K2 & Kn & In2 & N2 & Ed2 & I2 & Kd2 & P2).
    pose proof (fresh st1 (proj1 Sn1) (proj1 (proj2 Sn1))) as F1.
    assert (Old : forall x, In x (nodes st1) -> instructions st2 x = instructions st1 x). { intros x X. rewrite I2. destruct (Z.eqb_spec x n) as [->|]; [rewrite B2 in X; contradiction|reflexivity]. }
    assert (C2 : instructions st2 cb = instructions st cb) by (rewrite Old; [exact C1|rewrite N1; apply in_app_iff; auto]).
    assert (Ib2 : instructions st2 b1 = [k]) by (rewrite Old; [exact Ib|rewrite N1; apply in_app_iff; right; left; auto]).
    destruct (edge_add st2 n b1) as [st3|] eqn:E3; [|discriminate]. cbn [bind]. destruct (edge_add_inv _ _ _ _ Sn2 E3) as (Sn3 & K3 & S3 & D3 & D3').
    assert (C3 : instructions st3 cb = instructions st cb) by (rewrite (same_inst _ _ _ S3); exact C2).
    assert (H4 : forall st4, (if last_is_branch p st3 cb then Ok st3 else edge_add st3 cb n) = Ok st4 -> sane st4 /\ keeps any st3 st4 /\ same st3 st4 /\ (last_is_branch p st cb = false -> edg st4 cb n) /\ forall x y, edg st3 x y -> edg st4 x y).
    { intros st4. rewrite (last_branch_inst p _ _ _ C3). destruct (last_is_branch p st cb); intros E.
      - injection E as <-. split; [auto|]. split; [apply keeps_refl|]. split; [apply same_refl|]. split; [discriminate|auto].
      - destruct (edge_add_inv _ _ _ _ Sn3 E) as (A & B & C & D & D'). auto. }
    destruct (if last_is_branch p st3 cb then Ok st3 else edge_add st3 cb n) as [st4|] eqn:E4; [|discriminate]. cbn [bind]. destruct (H4 st4 eq_refl) as (Sn4 & K4 & S4 & D4 & D4'). clear H4.
    assert (H5 : forall st5, match lc with Some lc => edge_add_once st4 lc n | None => Ok st4 end = Ok st5 -> sane st5 /\ keeps any st4 st5 /\ same st4 st5 /\ (forall x, lc = Some x -> edg st5 x n) /\ forall x y, edg st4 x y -> edg st5 x y).
    { intros st5. destruct lc as [x|]; intros E.
      - destruct (edge_once_inv _ _ _ _ Sn4 E) as (A & B & C & D & D'). split; [auto|]. split; [auto|]. split; [auto|]. split; [congruence|auto].
      - injection E as <-. split; [auto|]. split; [apply keeps_refl|]. split; [apply same_refl|]. split; [discriminate|auto]. }
    destruct (match lc with Some lc => edge_add_once st4 lc n | None => Ok st4 end) as [st5|]; [|discriminate]. cbn [bind]. destruct (H5 st5 eq_refl) as (Sn5 & K5 & S5 & D5 & D5').
    assert (Pk : dget (c_pending st5) (Z.of_nat k) = None). { destruct S5 as (_ & _ & -> & _). destruct S4 as (_ & _ & -> & _). destruct S3 as (_ & _ & -> & _). rewrite P2, P1. exact Pn. }
    rewrite Pk. cbn [bind]. intros E. injection E as <- <- <-. split; [exact Sn5|]. split; [eapply keeps_trans; [exact K1|]; eapply keeps_trans; [exact K2|]; eapply keeps_trans; [exact K3|]; eapply keeps_trans; eassumption|].
    rewrite !(same_inst _ _ _ S5), !(same_inst _ _ _ S4), !(same_inst _ _ _ S3). split; [exact Ib2|]. split; [exact C2|]. exists n. split; [reflexivity|]. split; [rewrite (same_kind _ _ _ S5), (same_kind _ _ _ S4), (same_kind _ _ _ S3); exact Kn|]. auto. Qed.

(** Appending to the current block. *)
Lemma append_keeps st cb l x k : sane st -> In cb (nodes st) -> instructions st cb = l ++ [x] -> keeps (fun y => y <> x) st (set_instructions st cb (instructions st cb ++ [k])) /\ adjacent (set_instructions st cb (instructions st cb ++ [k])) x k.
Proof. intros (G & L & Kb) B I. destruct (set_inst_ok st cb (instructions st cb ++ [k]) G B) as (G' & Gr & L' & P' & I' & Kd). set (st' := set_instructions st cb (instructions st cb ++ [k])) in *.
  assert (Ic : instructions st' cb = l ++ [x; k]) by (rewrite I', Z.eqb_refl, I, <- app_assoc; reflexivity).
  assert (Io : forall b, b <> cb -> instructions st' b = instructions st b) by (intros b N; rewrite I'; destruct (Z.eqb_spec b cb); [contradiction|reflexivity]).
  assert (Ed : forall a b, edg st' a b <-> edg st a b) by (intros a b; unfold edg; rewrite Gr; reflexivity).
  assert (Sp : forall n, special st n -> special st' n) by (intros n (q & Q & Nq); exists q; rewrite Kd; auto).
  split; [|exists cb, l, []; exact Ic]. split; [|split].
  - intros a b (c & l1 & l2 & E). left. destruct (Z.eq_dec c cb) as [->|N]; [|exists c, l1, l2; rewrite Io; assumption]. exists cb, l1, (l2 ++ [k]). rewrite I', Z.eqb_refl, E, <- app_assoc. reflexivity.
  - intros s t Ps (a & b & S & T & E). exists a, b. split; [|split; [|apply Ed, E]].
    + destruct s as [y|n]; cbn [is_src] in *; [|destruct S as [-> S]; auto]. destruct S as (q & Q). destruct (Z.eq_dec a cb) as [->|N]; [|exists q; rewrite Io; assumption].
      exfalso. rewrite I in Q. apply app_inj_tail in Q as [_ Q]. apply (Ps y eq_refl). auto.
    + destruct t as [y|n]; cbn [is_tgt] in *; [|destruct T as [-> T]; auto]. destruct T as (q & Q). destruct (Z.eq_dec b cb) as [->|N]; [|exists q; rewrite Io; assumption].
      exists (q ++ [k]). rewrite I', Z.eqb_refl, Q. reflexivity.
  - intros n q. rewrite Kd. auto. Qed.
