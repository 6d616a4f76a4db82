(** The graph of a program without branches, its conditional nodes removed. *)
From Verif Require Import ListLemmas CfgProps SkipProofs.
From Verif Require Export LadderProofs.
From Coq Require Import ZifyBool ZifyNat Permutation.

Lemma ladder_loop p : no_branch p -> forall rest k st cb lf lc B, p = firstn k p ++ rest -> (k + length rest = length p)%nat -> Inv p k (st, (cb, lf, lc)) -> ladder p k st cb lf lc B ->
  exists st' cb' lf' lc' B', foldM (build_step p 2) (combine (seq k (length rest)) rest) (st, (cb, lf, lc)) = Ok (st', (cb', lf', lc')) /\ Inv p (length p) (st', (cb', lf', lc')) /\ ladder p (length p) st' cb' lf' lc' B'.
Proof.
  intros Hn. induction rest as [|c rest IH]; intros k st cb lf lc B E L HI HL.
  - cbn in *. assert (k = length p) by lia. subst k. exists st, cb, lf, lc, B. auto.
  - cbn [length] in *. cbn [seq combine foldM].
    assert (Lk : length (firstn k p) = k) by (rewrite firstn_length; lia).
    assert (Ec : nth_error p k = Some c) by (rewrite E, nth_error_app2, Lk, Nat.sub_diag by lia; auto).
    destruct (ladder_step p k st cb lf lc B c Hn HI HL Ec) as (st1 & cb1 & lf1 & lc1 & B1 & E1 & HI1 & HL1). rewrite E1. cbn [bind]. apply (IH (S k) st1 cb1 lf1 lc1 B1); [|lia|auto|auto].
    rewrite E at 1. assert (X : firstn (S k) p = firstn k p ++ [c]).
    { rewrite E at 1. rewrite firstn_app, Lk. rewrite firstn_all2 by lia. replace (S k - k)%nat with 1%nat by lia. reflexivity. }
    rewrite X, <- app_assoc. reflexivity.
Qed.
Lemma no_edges_walk (R : rel) u l v : (forall x y, ~ R x y) -> ~ walk R u l v.
Proof. intros H W. inversion W; subst; eapply H; eauto. Qed.
Lemma straight_build p : p <> [] -> no_branch p -> exists st cb B, build p = Ok st /\ core p (length p) (length p) st /\ kind_of st 1 = Some KRoot /\ kind_of st 2 = Some KEnd /\
  filter (fun n => negb (is_conditional st n) && negb (n =? 2)) (nodes st) = 1 :: B /\ (exists C, 1 :: B = C ++ [cb]) /\ pieces p (length p) st B /\
  forall u v, is_conditional st u = false -> is_conditional st v = false -> through (edg st) (fun z => is_conditional st z = true) u v <-> hop (1 :: B) (skips p st) u v \/ (v = 2 /\ u = cb).
Proof.
  intros Np Hn. destruct p as [|c0 p0]; [contradiction|]. set (p := c0 :: p0) in *. unfold build. fold p.
  destruct (new_node_ok _ KRoot [] good_start) as (st1 & E1 & G1 & L1 & P1 & N1 & Ed1 & I1 & K1); [discriminate|cbn; lia|]. cbn [c_last] in *.
  rewrite E1. cbn [bind]. destruct (new_node_ok st1 KEnd [] G1) as (st2 & E2 & G2 & L2 & P2 & N2 & Ed2 & I2 & K2); [discriminate|lia|]. rewrite E2. cbn [bind].
  rewrite L1 in *. change (0 + 1) with 1 in *. change (1 + 1) with 2 in *.
  assert (I0 : forall x, instructions st2 x = []) by (intros x; rewrite I2, I1; destruct (x =? 2), (x =? 1); reflexivity).
  assert (K0 : kind_of st2 1 = Some KRoot /\ kind_of st2 2 = Some KEnd) by (rewrite !K2, !K1; auto).
  assert (N0 : nodes st2 = [1; 2]) by (rewrite N2, N1; reflexivity).
  assert (Ed0 : forall x y, ~ edg st2 x y) by (intros x y; rewrite Ed2, Ed1; intros []).
  assert (H0 : Inv p 0 (st2, (1, None, None))).
  { split; [|split; [rewrite N0; cbn; auto|split; [discriminate|congruence]]]. apply Core; [auto|lia|..].
    - unfold insts. fold (nodes st2). rewrite N0. cbn [flat_map]. rewrite !I0. constructor.
    - intros x. rewrite I0. apply segment_nil.
    - intros j _. rewrite P2, P1. reflexivity.
    - intros x. rewrite I0, K2, K1. split; [|congruence]. destruct (x =? 2); [discriminate|]. destruct (x =? 1); [discriminate|]. cbn. discriminate.
    - intros x j. rewrite I0. intros [].
    - intros j; lia. }
  assert (T0 : forall P u v, ~ through (edg st2) P u v) by (intros P u v (l & W & _); eapply no_edges_walk; eauto).
  assert (HL0 : ladder p 0 st2 1 None None []).
  { split.
    - now rewrite P2, P1.
    - apply K0.
    - apply K0.
    - rewrite N0. cbn [filter]. rewrite !kind_conditional_b. destruct K0 as [-> ->]. reflexivity.
    - exists []. split; [reflexivity|]. discriminate.
    - intros u v _ _. split; [intros T; destruct (T0 _ _ _ T)|]. intros (a & b & d & E & _). exfalso. destruct a as [|? [|? ?]], b; discriminate.
    - unfold skips, first_cond. rewrite I0. split; [discriminate|congruence].
    - intros x. split; apply Ed0.
    - reflexivity.
    - split; [reflexivity|intros b []|]. intros a u v d E. destruct a; discriminate. }
  destruct (ladder_loop p Hn p 0 st2 1 None None [] eq_refl eq_refl H0 HL0) as (st3 & cb & lf & lc & B & E3 & (C3 & B3 & _) & L). rewrite E3. cbn [bind].
  assert (B2 : In 2 (nodes st3)). { apply good_nodes; [apply C3|]. pose proof (co_last _ _ _ _ C3). lia. }
  destruct (core_edge_once p (length p) (length p) st3 cb 2 C3 B3 B2) as (st4 & E4 & C4 & S4 & H4). rewrite E4. destruct L as [_ Lr Le Ln (C & EC & _) Led _ Lne _ Lp].
  assert (Ic : forall x, is_conditional st4 x = is_conditional st3 x) by (intros x; now rewrite !kind_conditional_b, (same_kind _ _ _ S4)).
  assert (Fc : forall x, first_cond p st4 x = first_cond p st3 x) by (intros x; unfold first_cond; now rewrite (same_inst _ _ _ S4)).
  exists st4, cb, B. split; [auto|]. split; [auto|]. rewrite !(same_kind _ _ _ S4). split; [auto|]. split; [auto|].
  split; [destruct S4 as (_ & _ & _ & ->); rewrite <- Ln; apply filter_ext; intros x; now rewrite Ic|]. split; [eauto|]. split.
  - destruct Lp as [Q1 Q2 Q3]. split.
    + rewrite <- Q1. apply insts_same_on. intros x _. apply (same_inst _ _ _ S4).
    + intros b Ib. rewrite (same_inst _ _ _ S4), Fc. auto.
    + intros a u v d E. rewrite !Fc. eauto.
  - intros u v Cu Cv. rewrite Ic in Cu, Cv. assert (Ccb : In cb (1 :: B)) by (rewrite EC; apply in_app_iff; right; left; auto). rewrite <- Ln, filter_In in Ccb. destruct Ccb as [_ Ccb]. apply andb_prop in Ccb as [Ccb Ncb].
    assert (N2B : ~ In 2 (1 :: B)) by (rewrite <- Ln, filter_In; intros [_ X]; rewrite andb_comm in X; discriminate).
    rewrite (through_fresh (edg st3) (edg st4) _ (fun x => x = cb) 2); [| |intros x; apply Lne|intros x; apply Lne|intros <-; discriminate].
    2: { intros x y. rewrite H4. tauto. }
    assert (TT : forall x y, through (edg st3) (fun z => is_conditional st4 z = true) x y <-> through (edg st3) (fun z => is_conditional st3 z = true) x y) by (intros x y; apply through_on; intros z w _; now rewrite Ic).
    rewrite TT, (Led u v Cu Cv). assert (HH : hop (1 :: B) (skips p st4) u v <-> hop (1 :: B) (skips p st3) u v) by (split; apply hop_ext; intros x _; unfold skips; now rewrite Fc). rewrite HH. split.
    + intros [[_ Q]|[Q [Q2|(x & -> & Q2 & _)]]]; auto. rewrite Ic in Q2. rewrite Q2 in Ccb. discriminate.
    + intros [Q|[Q Q2]]; [|right; auto]. left. split; [|auto]. intros ->. destruct Q as (a & b & d & E & _). apply N2B. rewrite E. apply in_app_iff. right. right. apply in_app_iff. right. left. auto.
Qed.

Lemma straight_graph p : p <> [] -> no_branch p -> exists st g B, plain_graph p = Ok (st, g) /\ constructed g /\ core p (length p) (length p) st /\ kind_of st 1 = Some KRoot /\ kind_of st 2 = Some KEnd /\ In 2 (g_nodes g) /\
  filter (fun n => negb (n =? 2)) (g_nodes g) = 1 :: B /\ g_nodes g = filter (fun n => negb (is_conditional st n)) (nodes st) /\ pieces p (length p) st B /\ sequence (edges g) (1 :: B) 2 (skips p st).
Proof.
  intros Np Hn. destruct (straight_build p Np Hn) as (st & cb & B & E & C & K1 & K2 & Nb & (C0 & EC) & Pc & Th). pose proof (co_good _ _ _ _ C) as G.
  destruct (remove_spec (is_conditional st) (c_graph st) (good_wf _ G)) as (g & Eg & Wg & Ng & Hg). exists st, g, B. unfold plain_graph. rewrite E. cbn [bind]. rewrite Eg. cbn [bind]. split; [auto|].
  split; [eapply remove_made; [exact (build_made p st E)|exact Eg]|]. split; [auto|]. split; [auto|]. split; [auto|].
  pose proof (remove_nodes _ _ _ (good_wf _ G) Eg) as Eo. fold (nodes st) in Eo.
  split. { apply Ng. split; [apply good_nodes; [auto|]; pose proof (co_last _ _ _ _ C); lia|]. now rewrite kind_conditional_b, K2. }
  split; [now rewrite Eo, filter_filter|]. split; [auto|]. split; [auto|].
  intros u v. unfold edges. rewrite has_edge_iff, Hg. split.
  - intros (Cu & Cv & T). apply (Th u v Cu Cv) in T as [T|[-> ->]]; [left; exact T|right; eauto].
  - intros Q. assert (Cc : forall x, In x (1 :: B) -> is_conditional st x = false) by (intros x X; rewrite <- Nb, filter_In in X; destruct X as [_ X]; destruct (is_conditional st x); [discriminate|auto]).
    assert (C2 : is_conditional st 2 = false) by (now rewrite kind_conditional_b, K2).
    assert (CC : is_conditional st u = false /\ is_conditional st v = false /\ (hop (1 :: B) (skips p st) u v \/ (v = 2 /\ u = cb))).
    { destruct Q as [(a & b & d & Ec & F)|(-> & a & Ec)].
      - split; [apply Cc; rewrite Ec; apply in_app_iff; right; left; auto|]. split; [apply Cc; rewrite Ec; apply in_app_iff; right; right; apply in_app_iff; right; left; auto|]. left. exists a, b, d. auto.
      - split; [apply Cc; rewrite Ec; apply in_app_iff; right; left; auto|]. split; [auto|]. right. split; [auto|]. rewrite EC in Ec. apply app_inj_tail in Ec as [_ ->]. auto. }
    destruct CC as (Cu & Cv & H). split; [auto|]. split; [auto|]. now apply Th.
Qed.
