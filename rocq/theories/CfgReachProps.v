(** C118: the blocks of a control flow graph can be reached from the root. *)
From Verif Require Import ListLemmas.
From Verif Require Export CfgEdgeProps.
From Coq Require Import ZifyBool ZifyNat Permutation.

(** ** Specification *)
(** Where control goes on after an unconditional branch as far as the construction is
    concerned: the branch follows an unconditional instruction that is no branch, and
    is no call into the program. *)
Definition goes_on (program : list cinst) (x : nat) : Prop :=
  (exists w, next_defined program w x /\ condition program w 14 /\ ~ branches program w) /\ (~ links program x \/ goes_outside program x).

(** ** Proofs *)
Definition reachedx (X : list Z) (st : cfg) : Prop := forall n, In n (nodes st) -> n <> 2 -> ~ In n X -> reachable (edg st) 1 n.
Lemma reach_mono (R S : rel) r n : (forall x y, R x y -> path S x y) -> reachable R r n -> reachable S r n.
Proof. intros H [->|P]; [left; reflexivity|right]. eapply path_sub; eassumption. Qed.
Lemma reach_step (R : rel) r u v : reachable R r u -> R u v -> reachable R r v.
Proof. intros [->|P] E; right; [now apply path_edge|]. eapply path_trans; [exact P|now apply path_edge]. Qed.
Lemma node_reached X st K l st' n : sane st -> (K <> KBlock -> l = []) -> new_node st K l = Ok (st', n) -> reachedx X st -> reachedx (n :: X) st'.
Proof. intros Sn Kl E R m M M2 Nx. destruct (new_node_inv _ _ _ _ _ Sn Kl E) as (_ & _ & _ & _ & _ & N & Ed & _). rewrite N in M. apply in_app_iff in M as [M|[<-|[]]]; [|exfalso; apply Nx; left; reflexivity].
  eapply reach_mono; [|apply R; [exact M|exact M2|]]; [intros x y X0; apply path_edge, Ed, X0|]. intros Y. apply Nx. right. exact Y. Qed.
Lemma edge_reached X st u v st' : sane st -> edge_add_once st u v = Ok st' -> reachedx X st -> reachedx X st' /\ (forall m, reachable (edg st) 1 m -> reachable (edg st') 1 m) /\ edg st' u v.
Proof. intros Sn E R. destruct (edge_once_inv _ _ _ _ Sn E) as (_ & _ & S & Euv & Mo). assert (H : forall m, reachable (edg st) 1 m -> reachable (edg st') 1 m) by (intros m; apply reach_mono; intros x y Y; apply path_edge, Mo, Y).
  split; [|split; [exact H|exact Euv]]. intros m M M2 Nx. apply H, R; [|exact M2|exact Nx]. destruct S as (_ & _ & _ & Ns). rewrite <- Ns. exact M. Qed.
Lemma add_once st u v st' : sane st -> edge_add st u v = Ok st' -> edge_add_once st u v = Ok st'.
Proof. intros Sn E. unfold edge_add_once. destruct (has_edge (c_graph st) u v) eqn:H; [|exact E]. exfalso. destruct (edge_add_inv _ _ _ _ Sn E) as (Sn' & _ & S & _). apply has_edge_iff in H.
  unfold edge_add, add_edge in E. pose proof H as Hi. destruct (good_wf _ (proj1 Sn)) as (_ & _ & W3 & _). apply W3 in Hi. unfold edge, nb in H. unfold inc in Hi.
  destruct (dget (node_neighbors (c_graph st)) u) as [nu|]; [|discriminate]. destruct (dget (node_incidence (c_graph st)) v) as [iv|]; [|discriminate].
  destruct (dmem (node_neighbors (c_graph st)) v); [|discriminate]. assert (Z1 : zmem v nu = true) by (apply zmem_in; exact H). assert (Z2 : zmem u iv = true) by (apply zmem_in; exact Hi). rewrite Z1, Z2 in E. discriminate. Qed.
Lemma drop_reached v X st u : reachedx (v :: X) st -> reachable (edg st) 1 u -> edg st u v -> reachedx X st.
Proof. intros R U E n N N2 Nx. destruct (Z.eq_dec n v) as [->|Ne]; [eapply reach_step; eassumption|]. apply R; [exact N|exact N2|]. intros [Y|Y]; [congruence|contradiction]. Qed.
Lemma cut_reached st st' split j : sane st -> In split (nodes st) -> split <> 1 -> split <> 2 -> (0 < j < length (instructions st split))%nat -> reachedx [] st -> nodes st' = nodes st ++ [c_last st + 1] ->
  (forall x y, edg st' x y <-> (edg st x y /\ y <> split) \/ (edg st x split /\ y = c_last st + 1) \/ (x = c_last st + 1 /\ y = split)) -> reachedx [] st'.
Proof. intros Sn Sp N1 N2 J R N Ed.
  assert (H : forall x y, edg st x y -> path (edg st') x y). { intros x y E. destruct (Z.eq_dec y split) as [->|Ne]; [|apply path_edge, Ed; auto]. apply (path_cons _ _ (c_last st + 1)); [apply Ed; auto|]. apply path_edge, Ed. auto. }
  intros n Nn Ne _. rewrite N in Nn. apply in_app_iff in Nn as [Nn|[<-|[]]]; [eapply reach_mono; [exact H|]; apply R; auto|].
  destruct (R split Sp N2 ltac:(auto)) as [X|[l W]]; [contradiction|]. apply walk_last in W as (q & Q & Hq). assert (Rq : reachable (edg st) 1 q) by (destruct Hq as [->|Hq]; [left; reflexivity|right; exact Hq]).
  eapply reach_step; [eapply reach_mono; [exact H|exact Rq]|]. apply Ed. auto. Qed.

Lemma conditional_reached p st k c cb lc st' b lc' : sane st -> reachedx [] st -> In cb (nodes st) -> cb <> 2 -> (forall n, lc = Some n -> In n (nodes st) /\ n <> 2) -> dget (c_pending st) (Z.of_nat k) = None ->
  last_is_branch p st cb = false \/ lc <> None -> branch_conditional p st k c cb lc = Ok (st', (b, lc')) -> reachedx [] st'.
Proof. intros Sn R Cb C2 Hlc Pn Op. unfold branch_conditional. destruct (new_node st KBlock [k]) as [[st1 b1]|] eqn:E1; [|discriminate]. cbn [bind].
  destruct (new_node_inv _ _ _ _ _ Sn ltac:(intros X; destruct (X eq_refl)) E1) as (B1 & Sn1 & _ & _ & Ib & N1 & Ed1 & I1 & Kd1 & P1).
  pose proof (node_reached [] _ _ _ _ _ Sn ltac:(intros X; destruct (X eq_refl)) E1 R) as R1. pose proof (fresh st (proj1 Sn) (proj1 (proj2 Sn))) as F. rewrite <- B1 in F.
  assert (Oldr : forall m, In m (nodes st) -> m <> 2 -> reachable (edg st1) 1 m). { intros m M M2. apply R1; [rewrite N1; apply in_app_iff; auto|exact M2|]. intros [<-|[]]. contradiction. }
  assert (C1 : instructions st1 cb = instructions st cb). { rewrite I1. destruct (Z.eqb_spec cb b1) as [->|]; [contradiction|reflexivity]. }
  destruct (ci_cond c =? cond_always).
  - assert (H2 : forall st2, (if last_is_branch p st1 cb then Ok st1 else edge_add st1 cb b1) = Ok st2 -> sane st2 /\ reachedx [b1] st2 /\ (forall m, reachable (edg st1) 1 m -> reachable (edg st2) 1 m) /\ (last_is_branch p st cb = false -> reachedx [] st2)).
    { intros st2. rewrite (last_branch_inst p _ _ _ C1). destruct (last_is_branch p st cb); intros E.
      - injection E as <-. split; [auto|]. split; [auto|]. split; [auto|discriminate].
      - pose proof (edge_add_inv _ _ _ _ Sn1 E) as (Sn2 & _). destruct (edge_reached [b1] _ _ _ _ Sn1 (add_once _ _ _ _ Sn1 E) R1) as (A1 & A2 & A3). split; [exact Sn2|]. split; [exact A1|]. split; [exact A2|]. intros _. eapply drop_reached; [exact A1| |exact A3]. apply A2, Oldr; assumption. }
    destruct (if last_is_branch p st1 cb then Ok st1 else edge_add st1 cb b1) as [st2|] eqn:E2; [|discriminate]. cbn [bind]. destruct (H2 st2 eq_refl) as (Sn2 & R2 & M2 & D2). clear H2.
    destruct lc as [x|].
    + destruct (edge_add_once st2 x b1) as [st3|] eqn:E3; [|discriminate]. cbn [bind]. intros E. injection E as <- <- <-. destruct (edge_reached [b1] _ _ _ _ Sn2 E3 R2) as (A1 & A2 & A3). eapply drop_reached; [exact A1| |exact A3]. apply A2, M2. destruct (Hlc x eq_refl) as [X1 X2]. apply Oldr; assumption.
    + cbn [bind]. intros E. injection E as <- <- <-. apply D2. destruct Op as [Op|Op]; [exact Op|contradiction].
  - destruct (new_node st1 KCond []) as [[st2 n]|] eqn:E2; [|discriminate]. cbn [bind]. destruct (new_node_inv _ _ _ _ _ Sn1 ltac:(auto) E2) as (B2 & Sn2 & _ & Kn & In2 & N2 & Ed2 & I2 & Kd2 & P2).
    pose proof (node_reached _ _ _ _ _ _ Sn1 ltac:(auto) E2 R1) as R2. pose proof (fresh st1 (proj1 Sn1) (proj1 (proj2 Sn1))) as F1. rewrite <- B2 in F1.
    assert (Oldr2 : forall m, In m (nodes st) -> m <> 2 -> reachable (edg st2) 1 m). { intros m M M2. eapply reach_mono; [|apply Oldr; [exact M|exact M2]]. intros x y Y. apply path_edge, Ed2, Y. }
    assert (C2' : instructions st2 cb = instructions st cb). { rewrite I2. destruct (Z.eqb_spec cb n) as [->|]; [|exact C1]. exfalso. apply F1. rewrite N1. apply in_app_iff. auto. }
    destruct (edge_add st2 n b1) as [st3|] eqn:E3; [|discriminate]. cbn [bind]. pose proof (edge_add_inv _ _ _ _ Sn2 E3) as (Sn3 & _ & S3 & _). destruct (edge_reached _ _ _ _ _ Sn2 (add_once _ _ _ _ Sn2 E3) R2) as (R3 & M3 & D3).
    assert (C3 : instructions st3 cb = instructions st cb) by (rewrite (same_inst _ _ _ S3); exact C2').
    assert (H4 : forall st4, (if last_is_branch p st3 cb then Ok st3 else edge_add st3 cb n) = Ok st4 -> sane st4 /\ same st3 st4 /\ reachedx [n; b1] st4 /\ (forall m, reachable (edg st3) 1 m -> reachable (edg st4) 1 m) /\ edg st4 n b1 /\ (last_is_branch p st cb = false -> reachable (edg st4) 1 n)).
    { intros st4. rewrite (last_branch_inst p _ _ _ C3). destruct (last_is_branch p st cb); intros E.
      - injection E as <-. split; [auto|]. split; [apply same_refl|]. split; [auto|]. split; [auto|]. split; [auto|discriminate].
      - pose proof (edge_add_inv _ _ _ _ Sn3 E) as (Sn4 & _ & S4 & _ & Mo). destruct (edge_reached _ _ _ _ _ Sn3 (add_once _ _ _ _ Sn3 E) R3) as (A1 & A2 & A3). split; [exact Sn4|]. split; [exact S4|]. split; [exact A1|]. split; [exact A2|]. split; [apply Mo, D3|]. intros _. eapply reach_step; [|exact A3]. apply A2, M3, Oldr2; assumption. }
    destruct (if last_is_branch p st3 cb then Ok st3 else edge_add st3 cb n) as [st4|] eqn:E4; [|discriminate]. cbn [bind]. destruct (H4 st4 eq_refl) as (Sn4 & S4 & R4 & M4 & D4 & Q4). clear H4.
    assert (H5 : forall st5, match lc with Some lc => edge_add_once st4 lc n | None => Ok st4 end = Ok st5 -> same st4 st5 /\ reachedx [n; b1] st5 /\ edg st5 n b1 /\ reachable (edg st5) 1 n).
    { intros st5. destruct lc as [x|]; intros E.
      - destruct (edge_once_inv _ _ _ _ Sn4 E) as (_ & _ & S5 & _ & Mo). destruct (edge_reached _ _ _ _ _ Sn4 E R4) as (A1 & A2 & A3). split; [exact S5|]. split; [exact A1|]. split; [apply Mo, D4|]. destruct (Hlc x eq_refl) as [X1 X2]. eapply reach_step; [|exact A3]. apply A2, M4, M3, Oldr2; assumption.
      - injection E as <-. split; [apply same_refl|]. split; [auto|]. split; [auto|]. apply Q4. destruct Op as [Op|Op]; [exact Op|contradiction]. }
    destruct (match lc with Some lc => edge_add_once st4 lc n | None => Ok st4 end) as [st5|]; [|discriminate]. cbn [bind]. destruct (H5 st5 eq_refl) as (S5 & R5 & D5 & Q5).
    assert (Pk : dget (c_pending st5) (Z.of_nat k) = None). { destruct S5 as (_ & _ & -> & _). destruct S4 as (_ & _ & -> & _). destruct S3 as (_ & _ & -> & _). rewrite P2, P1. exact Pn. }
    rewrite Pk. cbn [bind]. intros E. injection E as <- <- <-. intros m M M2 _. destruct (Z.eq_dec m n) as [->|Ne]; [exact Q5|]. destruct (Z.eq_dec m b1) as [->|Ne']; [eapply reach_step; eassumption|]. apply R5; [exact M|exact M2|]. intros [X|[X|[]]]; congruence. Qed.
Lemma tail_reached p st cb b i c st' cb' : sane st -> kind_of st 1 = Some KRoot -> kind_of st 2 = Some KEnd -> reachedx [] st -> In b (nodes st) -> b <> 2 -> branch_tail p st cb b i c 2 = Ok (st', cb') -> reachedx [] st'.
Proof. intros Sn K1 K2 R Bn B2. unfold branch_tail. destruct (branch_to p c) as [t|] eqn:Bt.
  - destruct (node_with_inst st t) as [s|] eqn:Nw.
    + apply node_with_inst_some in Nw as [Ns It]. destruct (split_node st s b t) as [st1|] eqn:E1; [|discriminate]. cbn [bind]. intros E. injection E as <- <-.
      unfold split_node in E1. destruct (nindex_ok t _ It) as (j & Ej & Lj & Hj). rewrite Ej in E1. cbn [bind] in E1. destruct j as [|j].
      * cbn [bind] in E1. eapply edge_reached; [exact Sn|apply add_once; eassumption|exact R].
      * destruct (cut_ok st s (S j) (proj1 Sn) Ns ltac:(lia) (proj1 (proj2 Sn))) as (st0 & E0 & G0 & L0 & P0 & N0 & I0 & Kd0 & Ed0). cbv zeta in E0. rewrite E0 in E1. cbn [bind] in E1.
        destruct (cut_keeps st st0 s (S j) Sn Ns ltac:(lia) G0 L0 I0 Kd0 Ed0) as [Sn0 _].
        assert (Ks : kind_of st s = Some KBlock) by (apply Sn; intros X; rewrite X in It; destruct It).
        assert (R0 : reachedx [] st0) by (eapply (cut_reached st st0 s (S j)); eauto; [intros ->; congruence|intros ->; congruence|lia]).
        eapply edge_reached; [exact Sn0|apply add_once; eassumption|exact R0].
    + cbn [bind]. intros E. injection E as <- <-. exact R.
  - destruct (new_node st KUnknown []) as [[st1 u]|] eqn:E1; [|discriminate]. cbn [bind]. destruct (new_node_inv _ _ _ _ _ Sn ltac:(auto) E1) as (Eu & Sn1 & _ & Ku & Iu & N1 & Ed1 & I1 & Kd1 & _).
    pose proof (node_reached _ _ _ _ _ _ Sn ltac:(auto) E1 R) as R1.
    destruct (edge_add st1 b u) as [st2|] eqn:E2; [|discriminate]. cbn [bind]. pose proof (edge_add_inv _ _ _ _ Sn1 E2) as (Sn2 & _). destruct (edge_reached _ _ _ _ _ Sn1 (add_once _ _ _ _ Sn1 E2) R1) as (R2 & M2 & D2).
    destruct (edge_add st2 u 2) as [st3|] eqn:E3; [|discriminate]. cbn [bind]. intros E. injection E as <- <-.
    assert (R2' : reachedx [] st2). { eapply drop_reached; [exact R2| |exact D2]. apply M2. eapply reach_mono; [|apply R; [exact Bn|exact B2|auto]]. intros x y Y. apply path_edge, Ed1, Y. }
    eapply edge_reached; [exact Sn2|apply add_once; eassumption|exact R2']. Qed.
Lemma tail_ends p st cb b i c st' cb' : sane st -> In b (nodes st) -> branch_tail p st cb b i c 2 = Ok (st', cb') -> forall n x l, instructions st n = l ++ [x] -> exists l', instructions st' n = l' ++ [x].
Proof. intros Sn Bn. unfold branch_tail. destruct (branch_to p c) as [t|] eqn:Bt.
  - destruct (node_with_inst st t) as [s|] eqn:Nw.
    + apply node_with_inst_some in Nw as [Ns It]. destruct (split_node st s b t) as [st1|] eqn:E1; [|discriminate]. cbn [bind]. intros E. injection E as <- <-.
      unfold split_node in E1. destruct (nindex_ok t _ It) as (j & Ej & Lj & Hj). rewrite Ej in E1. cbn [bind] in E1. destruct j as [|j].
      * cbn [bind] in E1. destruct (edge_add_inv _ _ _ _ Sn E1) as (_ & _ & S1 & _). intros n x l. rewrite (same_inst _ _ _ S1). eauto.
      * destruct (cut_ok st s (S j) (proj1 Sn) Ns ltac:(lia) (proj1 (proj2 Sn))) as (st0 & E0 & G0 & L0 & P0 & N0 & I0 & Kd0 & Ed0). cbv zeta in E0. rewrite E0 in E1. cbn [bind] in E1.
        destruct (cut_keeps st st0 s (S j) Sn Ns ltac:(lia) G0 L0 I0 Kd0 Ed0) as [Sn0 _]. destruct (edge_add_inv _ _ _ _ Sn0 E1) as (_ & _ & S1 & _). pose proof (fresh st (proj1 Sn) (proj1 (proj2 Sn))) as F.
        intros n x l En. assert (n <> c_last st + 1). { intros ->. apply F. eapply inst_in; [apply Sn|]. rewrite En. apply in_app_iff. right. left. reflexivity. }
        rewrite (same_inst _ _ _ S1), I0. destruct (Z.eqb_spec n (c_last st + 1)); [contradiction|]. destruct (Z.eqb_spec n s) as [->|]; [|eauto]. rewrite En in Lj |- *. rewrite app_length in Lj. cbn [length] in Lj. exists (skipn (S j) l). rewrite skipn_app. replace (S j - length l)%nat with 0%nat by lia. reflexivity.
    + cbn [bind]. intros E. injection E as <- <-. eauto.
  - destruct (new_node st KUnknown []) as [[st1 u]|] eqn:E1; [|discriminate]. cbn [bind]. destruct (new_node_inv _ _ _ _ _ Sn ltac:(auto) E1) as (Eu & Sn1 & _ & Ku & Iu & N1 & Ed1 & I1 & Kd1 & _).
    destruct (edge_add st1 b u) as [st2|] eqn:E2; [|discriminate]. cbn [bind]. destruct (edge_add_inv _ _ _ _ Sn1 E2) as (Sn2 & _ & S2 & _).
    destruct (edge_add st2 u 2) as [st3|] eqn:E3; [|discriminate]. cbn [bind]. destruct (edge_add_inv _ _ _ _ Sn2 E3) as (_ & _ & S3 & _). intros E. injection E as <- <-.
    intros n x l En. rewrite (same_inst _ _ _ S3), (same_inst _ _ _ S2), I1. destruct (Z.eqb_spec n u) as [->|]; [|eauto]. exfalso. apply (fresh st (proj1 Sn) (proj1 (proj2 Sn))). rewrite <- Eu. eapply inst_in; [apply Sn|]. rewrite En. apply in_app_iff. right. left. reflexivity. Qed.

Definition fine (p : list cinst) : Prop := forall x y, nextd p x y -> is_branch p x = true -> cond_at p x = 14 ->
  exists w, nextd p w x /\ cond_at p w = 14 /\ is_branch p w = false /\ (is_link p x = false \/ target p x = None).
Definition Inv7 (p : list cinst) (k : nat) (s : loop_state) : Prop :=
  Inv5 p k s /\ Inv6 p k s /\ let '(st, (cb, lf, lc)) := s in
  kind_of st 1 = Some KRoot /\ reachedx [] st /\ (forall x, lastd p k x -> conditional p x -> lc <> None) /\
  (forall y, (k <= y)%nat -> is_defined p y = true -> (forall j, (k <= j < y)%nat -> is_defined p j = false) -> last_is_branch p st cb = false \/ lc <> None).
Lemma lastd_defined p k x : lastd p k x -> exists a, defined p k = a ++ [x].
Proof. induction k as [|k IH]; intros (D & L & H); [lia|]. rewrite defined_S. destruct (is_defined p k) eqn:Dk.
  - assert (x = k) as ->; [|eauto]. destruct (Nat.lt_ge_cases x k) as [Lt|Ge]; [|lia]. rewrite H in Dk by lia. discriminate.
  - rewrite app_nil_r. apply IH. split; [exact D|]. split; [destruct (Nat.eq_dec x k) as [->|]; [congruence|lia]|]. intros j J. apply H. lia. Qed.
Lemma lastd_unique p k x y : lastd p k x -> lastd p k y -> x = y.
Proof. intros (Dx & Lx & Hx) (Dy & Ly & Hy). destruct (Nat.lt_trichotomy x y) as [L|[E|L]]; [rewrite Hx in Dy by lia; discriminate|exact E|rewrite Hy in Dx by lia; discriminate]. Qed.
Lemma next_last p w k : nextd p w k -> lastd p k w.
Proof. intros (A & B & C & D). split; [exact A|]. auto. Qed.
Lemma ends_branch p st b l x : instructions st b = l ++ [x] -> last_is_branch p st b = is_branch p x.
Proof. intros E. unfold last_is_branch, is_branch. rewrite E, rev_app_distr. reflexivity. Qed.
Lemma step7 p k s c s' : fine p -> Inv7 p k s -> nth_error p k = Some c -> build_step p 2 s (k, c) = Ok s' -> Inv7 p (S k) s'.
Proof.
  intros Fi (H5 & H6 & H7) Ec E. pose proof (step5 p k s c s' H5 Ec E) as H5'. pose proof (step6 p k s c s' H6 Ec E) as H6'. split; [exact H5'|]. split; [exact H6'|].
  destruct s as [st [[cb lf] lc]]. destruct H7 as (K1 & R & Hc & Op). destruct H6 as (HI & own & So & K2 & Ow & Hlc & Pl). destruct H5 as (_ & Hlf & _). pose proof HI as (C & B & Hl & Hf). pose proof (core_sane _ _ _ _ C) as Sn.
  assert (Lf : forall x, lastd p k x -> is_branch p x = false -> lf = Some (cond_at p x)). { intros x Lx Bx. destruct (lastd_defined _ _ _ Lx) as (a & Ea). specialize (Hlf a x Ea). destruct lf as [f|]; [congruence|congruence]. }
  assert (Cb2 : cb <> 2). { intros ->. destruct Pl as [(A & _)|[(l & x & A & _)|[(l & x & i & A & _)|(A & _)]]]; try congruence; (assert (kind_of st 2 = Some KBlock) by (apply Sn; rewrite A; destruct l; discriminate)); congruence. }
  assert (Lc2 : forall n, lc = Some n -> In n (nodes st) /\ n <> 2) by (intros n En; split; [apply Hl, En|]; intros ->; destruct (Hlc 2 En); congruence).
  unfold build_step in E. destruct (ci_undefined c) eqn:U.
  { injection E as <-. assert (D : is_defined p k = false) by (unfold is_defined; now rewrite Ec, U). split; [exact K1|]. split; [exact R|]. split.
    - intros x (Dx & Lx & Hx). apply Hc. split; [exact Dx|]. split; [destruct (Nat.eq_dec x k) as [->|]; [congruence|lia]|]. intros j J. apply Hx. lia.
    - intros y Ly Dy Hy. apply (Op y); [lia|exact Dy|]. intros j J. destruct (Nat.eq_dec j k) as [->|]; [exact D|apply Hy; lia]. }
  assert (D : is_defined p k = true) by (unfold is_defined; now rewrite Ec, U).
  assert (Ck : cond_at p k = ci_cond c) by (unfold cond_at; now rewrite Ec).
  assert (Bk : is_branch p k = ci_branch c) by (unfold is_branch; now rewrite Ec).
  assert (Lk : is_link p k = ci_link c) by (unfold is_link; now rewrite Ec).
  assert (Tk : target p k = branch_to p c) by (unfold target; now rewrite Ec).
  assert (Next : forall y, (S k <= y)%nat -> is_defined p y = true -> (forall j, (S k <= j < y)%nat -> is_defined p j = false) -> nextd p k y). { intros y Ly Dy Hy. split; [exact D|]. split; [exact Dy|]. split; [lia|]. intros j J. apply Hy. lia. }
  assert (Lu : forall x, lastd p (S k) x -> x = k) by (intros x X; eapply lastd_unique; [exact X|apply last_self, D]).
  destruct (match lf with Some f => ci_cond c =? f | None => false end) eqn:Cond.
  - destruct lf as [f|]; [|discriminate]. apply Z.eqb_eq in Cond.
    destruct Pl as [(_ & _ & X)|[(l & x & Ix & Lx & Fx)|[(_ & _ & _ & _ & _ & _ & X)|(_ & _ & _ & X)]]]; try discriminate X. assert (Cx : cond_at p k = cond_at p x) by congruence.
    assert (Hc' : forall x, lastd p (S k) x -> conditional p x -> lc <> None). { intros z Z1 Z2. apply Lu in Z1 as ->. apply (Hc x Lx). unfold conditional in *. congruence. }
    destruct (ci_branch c) eqn:Br.
    + rewrite branch_instruction_tail in E. destruct (new_node st KBlock [k]) as [[st1 b]|] eqn:E1; [|discriminate]. cbn [bind] in E.
      destruct (new_node_inv _ _ _ _ _ Sn ltac:(intros X; destruct (X eq_refl)) E1) as (Eb & Sn1 & Kp1 & _ & Ib & N1 & Ed1 & I1 & Kd1 & P1).
      pose proof (node_reached [] _ _ _ _ _ Sn ltac:(intros X; destruct (X eq_refl)) E1 R) as R1. pose proof (fresh st (proj1 Sn) (proj1 (proj2 Sn))) as F. rewrite <- Eb in F.
      destruct (edge_add st1 cb b) as [st2|] eqn:E2; [|discriminate]. cbn [bind] in E. destruct (edge_add_inv _ _ _ _ Sn1 E2) as (Sn2 & Kp2 & S2 & D2 & _).
      destruct (edge_reached _ _ _ _ _ Sn1 (add_once _ _ _ _ Sn1 E2) R1) as (R2 & M2 & _).
      assert (R2' : reachedx [] st2). { eapply drop_reached; [exact R2| |exact D2]. apply M2, R1; [rewrite N1; apply in_app_iff; auto|exact Cb2|]. intros [<-|[]]. contradiction. }
      destruct (branch_tail p st2 (Some cb) b k c 2) as [[st3 cb']|] eqn:E3; [|discriminate]. cbn [bind] in E. destruct cb' as [cb'|]; [|discriminate]. injection E as <-.
      assert (Bn : In b (nodes st2)). { pose proof S2 as (_ & _ & _ & ->). rewrite N1. apply in_app_iff. right. left. reflexivity. }
      assert (I2 : instructions st2 b = [k]) by (rewrite (same_inst _ _ _ S2); exact Ib).
      assert (Ic : instructions st2 cb = l ++ [x]). { rewrite (same_inst _ _ _ S2), I1. destruct (Z.eqb_spec cb b) as [->|]; [contradiction|exact Ix]. }
      assert (K12 : kind_of st2 1 = Some KRoot) by (apply Kp2, Kp1, K1). assert (K22 : kind_of st2 2 = Some KEnd) by (apply Kp2, Kp1, K2).
      assert (B2 : b <> 2) by (intros ->; assert (kind_of st2 2 = Some KBlock) by (apply Sn2; rewrite I2; discriminate); congruence).
      destruct (tail_inv _ _ _ _ _ _ _ _ Sn2 Bn E3) as (Sn3 & Kp3 & T1 & T2 & T3).
      pose proof (tail_reached _ _ _ _ _ _ _ _ Sn2 K12 K22 R2' Bn B2 E3) as R3. split; [apply Kp3, K12|]. split; [exact R3|]. split; [exact Hc'|].
      intros y Ly Dy Hy. destruct (Z.eq_dec (cond_at p k) cond_always) as [Al|Al]; [|right; apply (Hc' k); [apply last_self, D|exact Al]]. left.
      destruct (Fi k y (Next y Ly Dy Hy) Bk Al) as (w & Nw & Cw & Bw & Ho). assert (w = x) as -> by (eapply lastd_unique; [apply next_last, Nw|exact Lx]).
      destruct (ci_link c) eqn:Li.
      * destruct Ho as [Ho|Ho]; [congruence|]. destruct (T1 ltac:(congruence) eq_refl) as (u & Eu & Ku & _). injection Eu as ->. unfold last_is_branch. destruct (instructions st3 u) eqn:Ei; [reflexivity|]. exfalso. assert (kind_of st3 u = Some KBlock) by (apply Sn3; rewrite Ei; discriminate). congruence.
      * assert (Eq : Some cb' = Some cb) by (apply T3; reflexivity). injection Eq as ->.
        destruct (tail_ends _ _ _ _ _ _ _ _ Sn2 Bn E3 cb x l Ic) as (l' & El').
        rewrite (ends_branch p _ _ _ _ El'). exact Bw.
    + rewrite (co_pend _ _ _ _ C k) in E by lia. injection E as <-. destruct (set_inst_ok st cb (instructions st cb ++ [k]) (proj1 Sn) B) as (G' & Gr & L' & P' & I' & Kd). set (st' := set_instructions st cb (instructions st cb ++ [k])) in *.
      split; [rewrite Kd; exact K1|]. split; [|split; [exact Hc'|]].
      * intros n N. unfold nodes, edg in *. rewrite Gr in *. apply R, N.
      * intros y _ _ _. left. assert (El : instructions st' cb = instructions st cb ++ [k]) by (rewrite I', Z.eqb_refl; reflexivity). rewrite (ends_branch p _ _ _ _ El). exact Bk.
  - destruct (branch_conditional p st k c cb lc) as [[st1 [b lc']]|] eqn:E1; [|discriminate]. cbn [bind] in E.
    destruct (conditional_inv p st k c cb lc st1 b lc' Sn B (co_pend _ _ _ _ C k (le_n k)) E1) as (Sn1 & Kp1 & I1 & _ & Hb).
    destruct (branch_conditional_ok p k st c cb lc C Ec U B Hl) as (st1' & b' & lc1 & E1' & C1 & B1 & _). rewrite E1' in E1. injection E1 as -> -> ->.
    pose proof (conditional_reached p st k c cb lc st1 b lc' Sn R B Cb2 Lc2 (co_pend _ _ _ _ C k (le_n k)) (Op k (le_n k) D ltac:(intros; lia)) E1') as R1.
    assert (K11 : kind_of st1 1 = Some KRoot) by (apply Kp1, K1). assert (K21 : kind_of st1 2 = Some KEnd) by (apply Kp1, K2).
    assert (B2 : b <> 2) by (intros ->; assert (kind_of st1 2 = Some KBlock) by (apply Sn1; rewrite I1; discriminate); congruence).
    assert (Hl' : conditional p k -> lc' <> None). { unfold conditional. rewrite Ck. intros X. destruct (Z.eqb_spec (ci_cond c) cond_always) as [|_]; [contradiction|]. destruct Hb as (? & -> & _). discriminate. }
    assert (Rest : exists st2, s' = (st2, (b, Some (ci_cond c), lc')) /\ keeps any st1 st2 /\ reachedx [] st2 /\ exists l, instructions st2 b = l ++ [k]).
    { destruct (ci_branch c).
      - rewrite branch_instruction_tail in E. cbn [bind] in E. destruct (branch_tail p st1 None b k c 2) as [[st2 cb']|] eqn:E2; [|discriminate]. cbn [bind] in E. injection E as <-. exists st2. split; [reflexivity|]. split; [eapply tail_inv; eassumption|]. split; [eapply tail_reached; eassumption|]. eapply (tail_ends _ _ _ _ _ _ _ _ Sn1 B1 E2 b k []). exact I1.
      - cbn [bind] in E. injection E as <-. exists st1. split; [reflexivity|]. split; [apply keeps_refl|]. split; [exact R1|]. exists []. exact I1. }
    destruct Rest as (st2 & -> & Kp2 & R2 & (lb & Ib)). split; [apply Kp2, K11|]. split; [exact R2|]. split.
    + intros x Lx. apply Lu in Lx as ->. exact Hl'.
    + intros y Ly Dy Hy. destruct (Z.eq_dec (cond_at p k) cond_always) as [Al|Al]; [|right; apply Hl', Al]. left. rewrite (ends_branch p _ _ _ _ Ib), Bk. destruct (ci_branch c) eqn:Br; [|reflexivity]. exfalso.
      destruct (Fi k y (Next y Ly Dy Hy) Bk Al) as (w & Nw & Cw & Bw & _). rewrite (Lf w (next_last _ _ _ Nw) Bw), Cw, <- Ck, Al in Cond. discriminate.
Qed.
Lemma loop7 p : fine p -> forall rest k s s', p = firstn k p ++ rest -> (k + length rest = length p)%nat -> Inv7 p k s -> foldM (build_step p 2) (combine (seq k (length rest)) rest) s = Ok s' -> Inv7 p (length p) s'.
Proof. intros Fi. induction rest as [|c rest IH]; intros k s s' E L H.
  - cbn in *. intros X. injection X as <-. assert (k = length p) by lia. subst. exact H.
  - cbn [length] in *. cbn [seq combine foldM].
    assert (Lk : length (firstn k p) = k) by (rewrite firstn_length; lia).
    assert (Ec : nth_error p k = Some c) by (rewrite E, nth_error_app2, Lk, Nat.sub_diag by lia; auto).
    destruct (build_step p 2 s (k, c)) as [s1|] eqn:E1; [|discriminate]. cbn [bind]. apply (IH (S k)); [|lia|eapply step7; eassumption].
    rewrite E at 1. assert (X : firstn (S k) p = firstn k p ++ [c]).
    { rewrite E at 1. rewrite firstn_app, Lk. rewrite firstn_all2 by lia. replace (S k - k)%nat with 1%nat by lia. reflexivity. }
    rewrite X, <- app_assoc. reflexivity. Qed.

Lemma build7 p st : fine p -> p <> [] -> build p = Ok st -> good st /\ kind_of st 1 = Some KRoot /\ kind_of st 2 = Some KEnd /\ forall n, In n (nodes st) -> reachable (edg st) 1 n.
Proof.
  intros Fi Np Eb. destruct (build_ok p Np) as (st' & E' & Co & K1 & K2). assert (st' = st) as -> by congruence. clear E'. split; [apply Co|]. split; [exact K1|]. split; [exact K2|]. revert Eb.
  destruct p as [|c0 p0]; [contradiction|]. set (p := c0 :: p0) in *. unfold build. fold p.
  destruct (new_node_ok _ KRoot [] good_start) as (st1 & E1 & G1 & L1 & P1 & N1 & Ed1 & I1 & K1'); [discriminate|cbn; lia|]. cbn [c_last] in *.
  rewrite E1. cbn [bind]. destruct (new_node_ok st1 KEnd [] G1) as (st2 & E2 & G2 & L2 & P2 & N2 & Ed2 & I2 & K2'); [discriminate|lia|]. rewrite E2. cbn [bind].
  rewrite L1 in *. change (0 + 1) with 1 in *. change (1 + 1) with 2 in *.
  assert (I0 : forall x, instructions st2 x = []) by (intros x; rewrite I2, I1; destruct (x =? 2), (x =? 1); reflexivity).
  assert (HI0 : Inv p 0 (st2, (1, None, None))).
  { split; [|split; [rewrite N2, N1; cbn; auto|split; [discriminate|congruence]]]. apply Core; [auto|lia|..].
    - unfold insts. fold (nodes st2). assert (flat_map (instructions st2) (nodes st2) = []) as ->; [|constructor]. clear -I0. induction (nodes st2) as [|x l IH]; [auto|]. cbn [flat_map]. rewrite I0. exact IH.
    - intros x. rewrite I0. apply segment_nil.
    - intros j _. rewrite P2, P1. reflexivity.
    - intros x. rewrite I0, K2', K1'. split; [|congruence]. destruct (x =? 2); [discriminate|]. destruct (x =? 1); [discriminate|]. cbn. discriminate.
    - intros x j. rewrite I0. intros [].
    - intros j; lia. }
  assert (H5 : Inv5 p 0 (st2, (1, None, None))).
  { split; [exact HI0|]. assert (Nil : forall a (x : nat) l, defined p 0 <> a ++ x :: l) by (intros a0 x0 l0; destruct a0; discriminate).
    split; [intros a x X; destruct (Nil _ _ _ X)|]. split; [discriminate|]. split; [intros a x y b X; destruct (Nil _ _ _ X)|]. split; [intros a w u ws X; destruct (Nil _ _ _ X)|].
    split; [intros a w u ws ws0 v y b X; destruct (Nil _ _ _ X)|]. split; [intros a w x y b X; destruct (Nil _ _ _ X)|]. intros a w x X; destruct (Nil _ _ _ X). }
  assert (H6 : Inv6 p 0 (st2, (1, None, None))).
  { split; [exact HI0|]. exists (fun _ => 0%nat). split; [|split; [rewrite K2'; reflexivity|split; [|split; [discriminate|]]]].
    - split.
      + intros s t (b & b' & _ & _ & E). exfalso. apply Ed2, Ed1 in E. destruct (edg_nodes _ _ _ good_start E) as [X _]. destruct X.
      + intros x y (b & l1 & l2 & E). rewrite I0 in E. destruct l1; discriminate.
    - intros n. rewrite K2', K1'. destruct (n =? 2); [discriminate|]. destruct (n =? 1); discriminate.
    - left. split; [rewrite K2', K1'; reflexivity|]. split; [|reflexivity]. intros j J. lia. }
  assert (H7 : Inv7 p 0 (st2, (1, None, None))).
  { split; [exact H5|]. split; [exact H6|]. split; [rewrite K2', K1'; reflexivity|]. split; [|split].
    - intros n N M _. rewrite N2, N1 in N. cbn in N. left. destruct N as [N|[N|[]]]; congruence.
    - intros x (_ & L & _). lia.
    - intros y _ _ _. left. unfold last_is_branch. rewrite I0. reflexivity. }
  destruct (foldM (build_step p 2) (combine (seq 0 (length p)) p) (st2, (1, None, None))) as [s|] eqn:E3; [|discriminate]. cbn [bind].
  pose proof (loop7 p Fi p 0 _ _ eq_refl eq_refl H7 E3) as (_ & H6' & H7'). destruct s as [st3 [[cb lf] lc]]. destruct H7' as (_ & R & _). destruct H6' as ((C & B & _) & own & _ & K23 & _ & _ & Pl). pose proof (core_sane _ _ _ _ C) as Sn.
  assert (Cb2 : cb <> 2). { intros ->. destruct Pl as [(A & _)|[(l & x & A & _)|[(l & x & i & A & _)|(A & _)]]]; try congruence; (assert (kind_of st3 2 = Some KBlock) by (apply Sn; rewrite A; destruct l; discriminate)); congruence. }
  intros E4. destruct (edge_reached _ _ _ _ _ Sn E4 R) as (R4 & M4 & D4). intros n N. destruct (Z.eq_dec n 2) as [->|Ne]; [eapply reach_step; [|exact D4]; apply M4, R; auto|]. apply R4; auto. Qed.
Lemma branch_none p c : (forall t d, nth_error p t = Some d -> ci_jump c <> Some (ci_address d)) -> branch_to p c = None.
Proof. intros H. destruct (branch_to p c) as [t|] eqn:Bt; [|reflexivity]. exfalso. unfold branch_to in Bt. destruct (ci_jump c) as [j|] eqn:Ej; [|discriminate]. apply branch_to_from_spec in Bt as (t0 & d & _ & Et & -> & _). exact (H t0 d Et eq_refl). Qed.

(** ** C118 *)
(** The instruction after a call into the program is not reached. *)
Theorem C118_reachable_refuted : exists program st root b i c, build program = Ok st /\ root_node st root = true /\ holds st b i /\ nth_error program 1 = Some c /\ ci_link c = true /\ i = 2%nat /\ ~ reachable (edges (c_graph st)) root b.
Proof.
  set (p := [plain 0; Ci false true true 14 4 (Some 0); plain 8]).
  exists p, (match build p with Ok s => s | Err _ => Cfg g_empty [] 0 [] end), 1, 5, 2%nat, (Ci false true true 14 4 (Some 0)).
  split; [vm_compute; reflexivity|]. split; [reflexivity|]. split; [vm_compute; auto 12|]. split; [reflexivity|]. split; [reflexivity|]. split; [reflexivity|]. intros [X|[l W]]; [discriminate|].
  assert (X : 5 = 1 \/ 5 = 3 \/ 5 = 4); [|lia]. eapply (walk_stays _ (fun n => n = 1 \/ n = 3 \/ n = 4)); [|exact W|auto]. clear. intros x y [->|[->| ->]] E; apply has_edge_iff in E; vm_compute in E; intuition.
Qed.
Print Assumptions C118_reachable_refuted.
(** What holds: if every unconditional branch that something follows goes on
    ([goes_on]), every node can be reached.  Missing: the other unconditional branches,
    where nothing but a later branch can lead to what follows. *)
Theorem C118_reachable_partial : forall program st, build program = Ok st -> program <> [] ->
  (forall x y, next_defined program x y -> branches program x -> condition program x 14 -> goes_on program x) ->
  exists root, root_node st root = true /\ forall b, In b (g_nodes (c_graph st)) -> reachable (edges (c_graph st)) root b.
Proof.
  intros program st E Np H. destruct program as [|c0 p0]; [contradiction|]. set (program := c0 :: p0) in *.
  destruct (build7 program st) as (G & K1 & K2 & R); [|discriminate|exact E|].
  - intros x y N Bx Cx. destruct N as (Dx & Dy & L & Hn). assert (N' : next_defined program x y) by (apply nextd_spec; split; [exact Dx|]; auto).
    destruct (H x y N' (branch_spec _ _ Bx)) as ((w & Nw & Cw & Bw) & Ho). { destruct N' as (Dx' & _). pose proof (defined_cond _ _ Dx') as X. rewrite Cx in X. exact X. }
    exists w. split; [|split; [exact (cond_at_is _ _ _ Cw)|split; [now apply no_branch|]]].
    + destruct Nw as (A1 & A2 & A3 & A4). split; [now apply is_defined_iff|]. split; [exact Dx|]. split; [exact A3|]. intros j J. destruct (is_defined program j) eqn:Dj; [|reflexivity]. exfalso. apply (A4 j J). now apply is_defined_iff.
    + destruct Ho as [Ho|(c & Ec & Hc)]; [left|right].
      * unfold is_link. destruct (nth_error program x) as [c|] eqn:Ec; [|reflexivity]. destruct (ci_link c) eqn:Lc; [|reflexivity]. exfalso. apply Ho. exists c. auto.
      * unfold target. rewrite Ec. now apply branch_none.
  - exists 1. split; [exact (kind_node _ _ _ K1)|]. intros b B. eapply reach_mono; [|apply R, B]. intros x y X. apply path_edge. now apply has_edge_iff.
Qed.
Print Assumptions C118_reachable_partial.
(** In particular when no branch is unconditional. *)
Theorem C118_conditional_branches : forall program st, build program = Ok st -> program <> [] -> (forall x, branches program x -> ~ condition program x 14) ->
  exists root, root_node st root = true /\ forall b, In b (g_nodes (c_graph st)) -> reachable (edges (c_graph st)) root b.
Proof. intros program st E Np H. apply (C118_reachable_partial program st E Np). intros x y _ B C. exfalso. exact (H x B C). Qed.
Print Assumptions C118_conditional_branches.
(** An unconditional branch that goes on, conditional branches and a split block. *)
Definition reach_example := [plain 0; plain 4; jump 14 8 4; Ci false true true 0 12 (Some 0); Ci false false false 0 16 None; plain 20; jump 14 24 0].
Example C118_example : exists st, build reach_example = Ok st /\ (forall x y, next_defined reach_example x y -> branches reach_example x -> condition reach_example x 14 -> goes_on reach_example x) /\ length (g_nodes (c_graph st)) = 9%nat.
Proof.
  eexists. split; [vm_compute; reflexivity|]. split; [|reflexivity]. intros x y (_ & (d & Ed & _) & L & _) (c & Ec & Bc) (c' & Ec' & Cc). assert (c' = c) as -> by congruence. 
  assert (Ly : (y < 7)%nat) by (apply (nth_error_Some reach_example); congruence).
  assert (x = 2)%nat as ->.
  { destruct x as [|[|[|[|[|[|x]]]]]]; [| |reflexivity| | | |lia]; injection Ec as <-; first [discriminate Bc|discriminate Cc]. }
  split; [|left; intros (q & X & Y); injection X as <-; discriminate]. exists 1%nat. split; [split; [eexists; split; reflexivity|]; split; [eexists; split; reflexivity|]; split; [lia|]; intros j J; lia|]. split; [eexists; split; reflexivity|]. intros (q & X & Y); injection X as <-; discriminate.
Qed.
