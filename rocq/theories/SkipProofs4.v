(** The ways through a sequence of blocks some of which may be skipped. *)
From Verif Require Import ListLemmas CfgProps DomProps SsaProps.
From Verif Require Export SkipProofs.
From Coq Require Import ZifyBool ZifyNat.

(** [m] is [l] without some of the blocks that may be skipped. *)
Inductive kept (skip : Z -> bool) : list Z -> list Z -> Prop :=
| kept_nil : kept skip [] []
| kept_take b l m : kept skip l m -> kept skip (b :: l) (b :: m)
| kept_leave b l m : skip b = true -> kept skip l m -> kept skip (b :: l) m.
Lemma kept_none skip l : kept skip l [] <-> Forall (fun x => skip x = true) l.
Proof. split; [|induction 1; [apply kept_nil|now apply kept_leave]]. remember [] as m eqn:E. induction 1; [constructor|discriminate|constructor; auto]. Qed.
Lemma kept_first skip l x m : kept skip l (x :: m) <-> exists l1 l2, l = l1 ++ x :: l2 /\ Forall (fun y => skip y = true) l1 /\ kept skip l2 m.
Proof.
  split.
  - remember (x :: m) as k eqn:E. induction 1 as [|b l k H IH|b l k S H IH]; [discriminate|..].
    + injection E as -> ->. exists [], l. auto.
    + destruct (IH E) as (l1 & l2 & -> & F & K). exists (b :: l1), l2. auto.
  - intros (l1 & l2 & -> & F & K). induction F; cbn [app]; [now apply kept_take|now apply kept_leave].
Qed.
Lemma same_place {A} (a u1 : list A) (x : A) a' u1' : NoDup (a ++ x :: u1) -> a ++ x :: u1 = a' ++ x :: u1' -> a = a' /\ u1 = u1'.
Proof.
  revert a'. induction a as [|y a IH]; intros [|z a'] N E; cbn [app] in *.
  - injection E as ->. auto.
  - injection E as -> ->. exfalso. apply NoDup_cons_iff in N as [N _]. apply N, in_app_iff. right. left. auto.
  - injection E as -> E2. exfalso. apply NoDup_cons_iff in N as [N _]. apply N, in_app_iff. right. left. auto.
  - injection E as -> E2. apply NoDup_cons_iff in N as [_ N]. destruct (IH a' N E2) as [-> ->]. auto.
Qed.
Lemma ways R root c e skip : NoDup ((root :: c) ++ [e]) -> sequence R (root :: c) e skip ->
  forall n a u m b d, (length m <= n)%nat -> root :: c = a ++ u :: m ++ b :: d -> forall l, way R u l b <-> exists L, kept skip m L /\ l = u :: L ++ [b].
Proof.
  intros Nd Sq. pose proof (sequence_seqf _ _ _ _ _ Nd Sq) as Sf. set (F := (root :: c) ++ [e]) in *.
  assert (Nc : NoDup (root :: c)) by (apply NoDup_remove_1 in Nd; now rewrite app_nil_r in Nd). assert (Ne : ~ In e (root :: c)) by (apply NoDup_remove_2 in Nd; now rewrite app_nil_r in Nd).
  assert (Inf : forall x, In x (root :: c) -> In x F) by (intros x X; apply in_app_iff; auto).
  assert (Back : forall u l, In u F -> way R u l u -> l = [u]).
  { intros u l U W. inversion W as [|? w l' ? Q W']; subst; [auto|]. destruct (sf_edge _ _ _ _ _ Sf u w Q) as (_ & Iw & L & _). destruct (way_pos _ _ _ _ _ _ _ _ Sf Iw W') as [_ H]. destruct (H w) as [_ H2]; [|lia]. inversion W'; left; auto. }
  induction n as [n IH] using lt_wf_ind. intros a u m b d Ln Ec l. assert (Iu : In u F) by (apply Inf; rewrite Ec; apply in_app_iff; right; left; auto). assert (Ib : In b F) by (apply Inf; rewrite Ec; apply in_app_iff; right; right; apply in_app_iff; right; left; auto).
  assert (Nub : u <> b). { rewrite Ec in Nc. apply NoDup_remove_2 in Nc. intros ->. apply Nc. rewrite !in_app_iff. right. right. left. auto. }
  split.
  - intros W. inversion W as [|? w l' ? Q W']; subst; [contradiction|]. destruct (sf_edge _ _ _ _ _ Sf u w Q) as (_ & Iw & _). apply Sq in Q as [(a' & b0 & d0 & Ec' & Fb)|(-> & a' & Ec')].
    + rewrite Ec in Ec'. rewrite Ec in Nc. destruct (same_place _ _ _ _ _ Nc Ec') as [_ E]. clear Ec'. rewrite <- Ec in Nc.
      assert (H : (exists m2, m = b0 ++ w :: m2) \/ (w = b /\ b0 = m) \/ In b b0).
      { clear -E. revert b0 E. induction m as [|x m IHm]; intros [|y b0] E; cbn [app] in E; injection E as E1 E2; subst.
        - right. left. auto.
        - right. right. left. auto.
        - left. exists m. auto.
        - destruct (IHm b0 E2) as [(m2 & ->)|[[-> ->]|H]]; [left; exists m2; auto|right; left; auto|right; right; right; auto]. }
      destruct H as [(m2 & ->)|[[-> ->]|H]].
      * assert (Ec2 : root :: c = (a ++ u :: b0) ++ w :: m2 ++ b :: d) by (rewrite Ec, <- ?app_assoc; cbn [app]; rewrite <- ?app_assoc; reflexivity).
        assert (Lm : (length m2 < n)%nat) by (rewrite app_length in Ln; cbn [length] in Ln; lia). apply (IH (length m2) Lm _ w m2 b d (le_n _) Ec2) in W' as (L & K & ->). exists (w :: L). split; [|reflexivity]. apply kept_first. eauto.
      * apply Back in W'; [|auto]. subst l'. exists []. split; [|reflexivity]. now apply kept_none.
      * exfalso. destruct (way_pos _ _ _ _ _ _ _ _ Sf Iw W') as [_ X]. destruct (X w) as [_ X2]; [inversion W'; left; auto|].
        apply in_split in H as (b1 & b2 & ->). assert (Ef : F = (a ++ u :: b1) ++ b :: b2 ++ w :: d0 ++ [e]). { unfold F. rewrite Ec, E, <- ?app_assoc. cbn [app]. rewrite <- ?app_assoc. cbn [app]. rewrite <- ?app_assoc. reflexivity. }
        rewrite Ef in X2, Nd. rewrite pos_mid2 in X2 by auto. rewrite pos_mid in X2 by auto. lia.
    + exfalso. inversion W' as [|? w ? ? Q W2]; subst; [apply Ne; rewrite Ec; apply in_app_iff; right; right; apply in_app_iff; right; left; auto|].
      apply Sq in Q as [(x & y & z & Ez & _)|(-> & x & Ez)]; apply Ne; rewrite Ez; apply in_app_iff; right; left; auto.
  - intros (L & K & ->). destruct L as [|x L]; cbn [app].
    + apply kept_none in K. apply way_step with (w := b); [|constructor]. apply Sq. left. exists a, m, d. auto.
    + apply kept_first in K as (m1 & m2 & -> & Fm & K). assert (Ec2 : root :: c = (a ++ u :: m1) ++ x :: m2 ++ b :: d) by (rewrite Ec, <- ?app_assoc; cbn [app]; rewrite <- ?app_assoc; reflexivity).
      apply way_step with (w := x).
      * apply Sq. left. exists a, m1, (m2 ++ b :: d). split; [|auto]. rewrite Ec2, <- app_assoc. reflexivity.
      * assert (Lm : (length m2 < n)%nat) by (rewrite app_length in Ln; cbn [length] in Ln; lia). apply (IH (length m2) Lm _ x m2 b d (le_n _) Ec2). exists L. auto.
Qed.
