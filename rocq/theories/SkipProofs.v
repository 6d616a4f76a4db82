(** Sequences of blocks some of which may be skipped: dominance, the order of the renaming
    and the definitions that reach a read. *)
From Verif Require Import ListLemmas CfgProps DomProps SsaProps.
From Verif Require Export SsaTotalProofs.
From Coq Require Import ZifyBool ZifyNat.

(** The blocks [c] follow one another and then [e]; control may pass over those with
    [skip], and from the last block of [c] it goes to [e]. *)
Definition sequence (R : rel) (c : list Z) (e : Z) (skip : Z -> bool) : Prop :=
  forall u v, R u v <-> (exists a b d, c = a ++ u :: b ++ v :: d /\ Forall (fun x => skip x = true) b) \/ (v = e /\ exists a, c = a ++ [u]).

Lemma pos_mid a u r : NoDup (a ++ u :: r) -> pos (a ++ u :: r) u = length a.
Proof. intros N. apply NoDup_remove_2 in N. rewrite in_app_iff in N. rewrite pos_app_r by auto. cbn [pos]. rewrite Z.eqb_refl. lia. Qed.
Lemma pos_mid2 a u b v d : NoDup (a ++ u :: b ++ v :: d) -> pos (a ++ u :: b ++ v :: d) v = (length a + 1 + length b)%nat.
Proof. intros N. replace (a ++ u :: b ++ v :: d) with ((a ++ u :: b) ++ v :: d) in * by (rewrite <- app_assoc; reflexivity). rewrite pos_mid by auto. rewrite app_length. cbn [length]. lia. Qed.
Lemma split_pos F u v : NoDup F -> In u F -> In v F -> (pos F u < pos F v)%nat -> exists a b d, F = a ++ u :: b ++ v :: d.
Proof. intros N U V L. apply in_split in U as (a & r & ->). rewrite pos_mid in L by auto. apply in_app_iff in V as [V|[->|V]].
  - rewrite pos_app_l in L by auto. apply pos_lt in V. lia.
  - rewrite pos_mid in L by auto. lia.
  - apply in_split in V as (b & d & ->). eauto. Qed.
Lemma between_pos a u b v d x : NoDup (a ++ u :: b ++ v :: d) -> let F := a ++ u :: b ++ v :: d in In x b <-> In x F /\ (pos F u < pos F x < pos F v)%nat.
Proof. intros N F. unfold F in *. rewrite (pos_mid2 a u b v d N). rewrite (pos_mid a u (b ++ v :: d) N). split.
  - intros X. split; [rewrite in_app_iff; cbn [In]; rewrite in_app_iff; auto|]. apply in_split in X as (b1 & b2 & ->). rewrite <- app_assoc in N |- *. cbn [app] in N |- *. rewrite (pos_mid2 a u b1 x (b2 ++ v :: d) N). rewrite app_length. cbn [length]. lia.
  - intros [I [L1 L2]]. apply in_app_iff in I as [I|[->|I]].
    + rewrite pos_app_l in L1 by auto. apply pos_lt in I. lia.
    + rewrite pos_mid in L1 by auto. lia.
    + apply in_app_iff in I as [I|[->|I]]; [auto| |].
      * rewrite pos_mid2 in L2 by auto. lia.
      * exfalso. apply in_split in I as (d1 & d2 & ->). replace (a ++ u :: b ++ v :: d1 ++ x :: d2) with ((a ++ u :: b ++ v :: d1) ++ x :: d2) in * by (rewrite <- !app_assoc; cbn [app]; rewrite <- !app_assoc; reflexivity).
        rewrite pos_mid in L2 by auto. rewrite !app_length in L2. cbn [length] in L2. rewrite app_length in L2. cbn [length] in L2. lia. Qed.
Lemma pos_ex F k : (k < length F)%nat -> NoDup F -> exists x, In x F /\ pos F x = k.
Proof. intros L N. destruct (nth_error F k) as [x|] eqn:E; [|apply nth_error_None in E; lia]. exists x. pose proof (nth_error_In _ _ E) as I. split; [auto|]. apply pos_nth in I as E'. rewrite NoDup_nth_error in N. symmetry. apply N; [auto|]. congruence. Qed.

(** The same in terms of positions. *)
Record seqf (R : rel) (F : list Z) (root e : Z) (skip : Z -> bool) : Prop := Seqf {
  sf_nodup : NoDup F; sf_root : In root F /\ pos F root = O; sf_end : In e F /\ S (pos F e) = length F; sf_two : root <> e;
  sf_edge : forall u v, R u v -> In u F /\ In v F /\ (pos F u < pos F v)%nat /\ forall d, In d F -> (pos F u < pos F d < pos F v)%nat -> skip d = true /\ v <> e;
  sf_next : forall u v, In u F -> In v F -> pos F v = S (pos F u) -> R u v;
  sf_jump : forall u v, In u F -> In v F -> (pos F u < pos F v)%nat -> v <> e -> (forall d, In d F -> (pos F u < pos F d < pos F v)%nat -> skip d = true) -> R u v }.
Lemma sequence_seqf R root c e skip : NoDup ((root :: c) ++ [e]) -> sequence R (root :: c) e skip -> seqf R ((root :: c) ++ [e]) root e skip.
Proof.
  intros N S. set (C := root :: c) in *. assert (Pe : pos (C ++ [e]) e = length C) by (apply pos_mid; auto).
  assert (Ne : ~ In e C) by (apply NoDup_remove_2 in N; rewrite app_nil_r in N; exact N).
  assert (Ie : forall x, In x (C ++ [e]) -> x <> e -> In x C) by (intros x I X; apply in_app_iff in I as [I|[I|[]]]; [auto|congruence]).
  split.
  - exact N.
  - unfold C. cbn [app pos In]. rewrite Z.eqb_refl. auto.
  - split; [apply in_app_iff; right; left; auto|]. rewrite Pe, app_length. cbn. lia.
  - intros ->. apply Ne. left. auto.
  - intros u v H. apply S in H as [(a & b & d & Ec & Fb)|(-> & a & Ec)].
    + assert (EF : C ++ [e] = a ++ u :: b ++ v :: d ++ [e]) by (rewrite Ec, <- app_assoc; cbn [app]; rewrite <- app_assoc; reflexivity). rewrite EF in *.
      split; [rewrite in_app_iff; cbn [In]; auto|]. split; [rewrite in_app_iff; cbn [In]; rewrite in_app_iff; cbn [In]; auto|]. split; [rewrite pos_mid, pos_mid2 by auto; lia|].
      intros x Ix L. assert (Ib : In x b) by (apply (between_pos a u b v (d ++ [e]) x N); auto). rewrite Forall_forall in Fb. split; [auto|]. intros ->. apply Ne. rewrite Ec, in_app_iff. cbn [In]. rewrite in_app_iff. cbn [In]. auto.
    + assert (EF : C ++ [e] = a ++ u :: [] ++ e :: []) by (rewrite Ec, <- app_assoc; reflexivity). rewrite EF in *.
      split; [rewrite in_app_iff; cbn [In]; auto|]. split; [rewrite in_app_iff; cbn [In app]; auto|]. split; [rewrite pos_mid, pos_mid2 by auto; lia|].
      intros x Ix L. assert (Ib : In x []) by (apply (between_pos a u [] e [] x N); auto). destruct Ib.
  - intros u v U V L. destruct (split_pos _ u v N U V) as (a & b & d & EF); [lia|]. rewrite EF in L, N. rewrite pos_mid, pos_mid2 in L by auto. assert (b = []) by (destruct b; [auto|cbn [length] in L; lia]). subst b. cbn [app] in EF.
    apply S. destruct (Z.eq_dec v e) as [->|Nv].
    + right. split; [auto|]. exists a. assert (d = []). { destruct d as [|y d]; [auto|]. exfalso. cbn [app] in N. destruct (@exists_last _ (y :: d)) as (d' & z & Ed); [discriminate|]. rewrite Ed in EF. replace (a ++ u :: e :: d' ++ [z]) with ((a ++ u :: e :: d') ++ [z]) in EF by (rewrite <- app_assoc; reflexivity). apply app_inj_tail in EF as [EF _]. apply Ne. rewrite EF, in_app_iff. cbn [In]. auto. }
      subst d. replace (a ++ [u; e]) with ((a ++ [u]) ++ [e]) in EF by (rewrite <- app_assoc; reflexivity). now apply app_inj_tail in EF as [EF _].
    + left. exists a, []. destruct (@exists_last _ (v :: d)) as (d' & z & Ed); [discriminate|]. assert (EF' : C ++ [e] = (a ++ u :: d') ++ [z]) by (rewrite EF, Ed, <- app_assoc; reflexivity). apply app_inj_tail in EF' as [EC <-].
      destruct d' as [|y d']; [injection Ed as Q _; congruence|]. injection Ed as <- Ed. exists d'. rewrite EC. auto.
  - intros u v U V L Nv Sk. destruct (split_pos _ u v N U V) as (a & b & d & EF); [lia|]. apply S. left. exists a, b.
    destruct (@exists_last _ (v :: d)) as (d' & z & Ed); [discriminate|]. assert (EF' : C ++ [e] = (a ++ u :: b ++ d') ++ [z]) by (rewrite EF, Ed, <- app_assoc; cbn [app]; rewrite <- app_assoc; reflexivity). apply app_inj_tail in EF' as [EC <-].
    destruct d' as [|y d']; [injection Ed as Q _; congruence|]. injection Ed as <- Ed. exists d'. split; [auto|]. apply Forall_forall. intros x Ix. rewrite EF in N. pose proof (proj1 (between_pos a u b v d x N) Ix) as [I1 I2]. rewrite <- EF in I1, I2. apply Sk; auto.
Qed.

(** Ways go forward. *)
Lemma way_pos R F root e skip u l v : seqf R F root e skip -> In u F -> way R u l v -> In v F /\ forall x, In x l -> In x F /\ (pos F u <= pos F x <= pos F v)%nat.
Proof. intros Sf U W. induction W as [u|u w l v E W IH].
  - split; [auto|]. intros x [<-|[]]. split; [auto|lia].
  - destruct (sf_edge _ _ _ _ _ Sf u w E) as (_ & Iw & L & _). destruct (IH Iw) as [Iv H]. split; [auto|]. assert (Lw : In w l) by (inversion W; subst; left; auto). pose proof (H w Lw) as [_ Hw].
    intros x [<-|X]; [split; [auto|lia]|]. destruct (H x X) as [A B]. split; [auto|lia]. Qed.
Lemma straight R F root e skip : seqf R F root e skip -> forall n u v, In u F -> In v F -> pos F v = (pos F u + n)%nat -> exists l, way R u l v.
Proof. intros Sf. induction n as [|n IH]; intros u v U V L.
  - assert (u = v) as -> by (eapply pos_inj; eauto; lia). exists [v]. constructor.
  - destruct (pos_ex F (S (pos F u))) as (w & Iw & Pw); [apply pos_lt in V; lia|apply Sf|]. destruct (IH w v Iw V) as (l & W); [lia|]. exists (u :: l). econstructor; [|exact W]. eapply sf_next; eauto. Qed.
Lemma straight_le R F root e skip u v : seqf R F root e skip -> In u F -> In v F -> (pos F u <= pos F v)%nat -> exists l, way R u l v.
Proof. intros Sf U V L. eapply (straight R F root e skip Sf (pos F v - pos F u)); auto. lia. Qed.
Lemma seq_reach R F root e skip v : seqf R F root e skip -> reachable R root v <-> In v F.
Proof. intros Sf. rewrite reachable_way. split.
  - intros (l & W). exact (proj1 (way_pos _ _ _ _ _ _ _ _ Sf (proj1 (sf_root _ _ _ _ _ Sf)) W)).
  - intros V. eapply straight_le; eauto; [apply Sf|]. destruct (sf_root _ _ _ _ _ Sf) as [_ ->]. lia. Qed.
(** Dominance. *)
Lemma dom_pos R F root e skip d v : seqf R F root e skip -> In v F -> dominates R root d v -> In d F /\ (pos F d <= pos F v)%nat.
Proof. intros Sf V D. pose proof (proj2 (seq_reach _ _ _ _ _ v Sf) V) as Rv. apply reachable_way in Rv as (l & W). pose proof (D l W) as I. eapply way_pos in W; eauto; [|apply Sf]. destruct W as [_ H]. destruct (H d I) as [A B]. split; [auto|lia]. Qed.
Lemma unskipped R F root e skip d v : seqf R F root e skip -> In d F -> In v F -> (pos F d <= pos F v)%nat -> skip d = false \/ d = root -> dominates R root d v.
Proof. intros Sf D V L [K|K]; [|subst; apply root_dominates]. intros l W. assert (H : forall u, In u F -> (pos F u <= pos F d)%nat -> way R u l v -> In d l).
  { clear W. intros u U Lu W. revert L Lu U V. induction W as [u|u w l v E W IH]; intros L Lu U V.
    - left. eapply pos_inj; eauto. lia.
    - destruct (Nat.eq_dec (pos F u) (pos F d)) as [Eq|Nq]; [left; eapply pos_inj; eauto|]. right. destruct (sf_edge _ _ _ _ _ Sf u w E) as (_ & Iw & Lw & Sk). apply IH; auto.
      destruct (le_lt_dec (pos F w) (pos F d)) as [A|A]; [auto|]. destruct (Sk d D); [lia|congruence]. }
  apply (H root); [apply Sf| |exact W]. destruct (sf_root _ _ _ _ _ Sf) as [_ ->]. lia. Qed.
Lemma skipped R F root e skip d v : seqf R F root e skip -> In d F -> In v F -> (pos F d < pos F v)%nat -> skip d = true -> d <> root -> (S (pos F d) <> pos F e)%nat -> ~ dominates R root d v.
Proof. intros Sf D V L K Nr Ne Dm. destruct (sf_root _ _ _ _ _ Sf) as [Ir Pr].
  assert (P0 : pos F d <> O) by (intros Q; apply Nr; eapply pos_inj; eauto; congruence). destruct (pos_ex F (pos F d - 1)) as (u & U & Pu); [apply pos_lt in D; lia|apply Sf|].
  destruct (pos_ex F (pos F d + 1)) as (w & Iw & Pw); [apply pos_lt in V; lia|apply Sf|].
  destruct (straight_le _ _ _ _ _ root u Sf Ir U) as (l1 & W1); [lia|]. destruct (straight_le _ _ _ _ _ w v Sf Iw V) as (l2 & W2); [lia|].
  assert (Nw : w <> e) by (intros ->; lia).
  assert (E : R u w). { apply (sf_jump _ _ _ _ _ Sf); auto; [lia|]. intros x X Lx. assert (x = d) as -> by (eapply pos_inj; eauto; lia). exact K. }
  assert (W : way R root (l1 ++ l2) v). { clear - W1 W2 E. induction W1 as [u|u x l1 v1 E1 W1 IH]; [econstructor; eauto|]. cbn [app]. econstructor; [exact E1|auto]. }
  apply Dm, in_app_iff in W as [W|W].
  - destruct (way_pos _ _ _ _ _ _ _ _ Sf Ir W1) as [_ H]. destruct (H d W). lia.
  - destruct (way_pos _ _ _ _ _ _ _ _ Sf Iw W2) as [_ H]. destruct (H d W). lia. Qed.
Lemma before_end R F root e skip d : seqf R F root e skip -> In d F -> (S (pos F d) = pos F e)%nat -> dominates R root d e.
Proof. intros Sf D P l W. destruct (way_cases _ _ _ _ W) as [[_ Q]|(m & M & ->)]; [destruct (sf_two _ _ _ _ _ Sf); auto|]. assert (H : exists u, R u e /\ (u = root \/ In u m)).
  { clear - M. induction M as [u v E|u w m v E M (x & A & B)]; [eauto|]. exists x. split; [auto|]. right. destruct B as [->|B]; [left; auto|right; auto]. }
  destruct H as (u & E & H). destruct (sf_edge _ _ _ _ _ Sf u e E) as (Iu & _ & L & Sk).
  assert (u = d). { destruct (Nat.eq_dec (pos F u) (pos F d)) as [Q|Q]; [eapply pos_inj; eauto|]. destruct (Sk d D); [lia|congruence]. } subst u. destruct H as [->|H]; [left; auto|right; apply in_app_iff; left; auto]. Qed.
Lemma dom_cases R F root e skip d v : seqf R F root e skip -> In v F -> dominates R root d v -> d <> v -> In d F /\ (pos F d < pos F v)%nat /\ ((skip d = false \/ d = root) \/ v = e /\ (S (pos F d) = pos F e)%nat).
Proof. intros Sf V D N. destruct (dom_pos _ _ _ _ _ d v Sf V D) as [Id L]. assert (L' : (pos F d < pos F v)%nat). { destruct (Nat.eq_dec (pos F d) (pos F v)) as [Q|Q]; [|lia]. destruct N. eapply pos_inj; eauto. }
  split; [auto|]. split; [auto|]. destruct (skip d) eqn:K; [|auto]. destruct (Z.eq_dec d root) as [->|Nr]; [auto|]. destruct (Nat.eq_dec (S (pos F d)) (pos F e)) as [Q|Q]; [|destruct (skipped _ _ _ _ _ d v Sf); auto].
  right. split; [|auto]. destruct (sf_end _ _ _ _ _ Sf) as [Ie Pe]. pose proof (proj1 (pos_lt F v) V). eapply pos_inj; eauto. lia. Qed.
Lemma sub_way R u l v x : way R u l v -> In x l -> exists l', way R u l' x /\ incl l' l.
Proof. intros W. induction W as [u|u w l v E W IH]; intros I.
  - destruct I as [->|[]]. exists [x]. split; [constructor|apply incl_refl].
  - destruct I as [->|I]; [exists [x]; split; [constructor|intros y [<-|[]]; left; auto]|]. destruct (IH I) as (l' & W' & Il). exists (u :: l'). split; [econstructor; eauto|]. intros y [<-|Y]; [left; auto|right; auto]. Qed.
Lemma dominates_trans R root a b c : dominates R root a b -> dominates R root b c -> dominates R root a c.
Proof. intros A B l W. destruct (sub_way _ _ _ _ b W (B l W)) as (l' & W' & I). apply I, A, W'. Qed.
(** A child that has a later sibling dominates only itself. *)
Lemma siblings R F root e skip n a b x : seqf R F root e skip -> In a F -> In b F -> immediate R root n a -> immediate R root n b -> (pos F a < pos F b)%nat -> In x F -> dominates R root a x -> x = a.
Proof. intros Sf A B Ia Ib L X D. destruct (Z.eq_dec a x) as [->|Nx]; [auto|]. exfalso.
  assert (H : dominates R root a b).
  { destruct (dom_cases _ _ _ _ _ a x Sf X D Nx) as (_ & Lx & [U|[-> P]]); [apply (unskipped _ _ _ _ _ a b Sf); auto; lia|]. destruct (sf_end _ _ _ _ _ Sf) as [_ Pe]. pose proof (proj1 (pos_lt F b) B). assert (b = e) as -> by (eapply pos_inj; eauto; lia). auto. }
  destruct Ia as [[Na Da] _]. destruct Ib as [_ Ib]. assert (Dn : dominates R root a n) by (apply Ib; split; [intros ->; lia|auto]).
  destruct (dom_pos _ _ _ _ _ n a Sf A Da) as [In1 L1]. destruct (dom_pos _ _ _ _ _ a n Sf In1 Dn) as [_ L2]. apply Na. eapply pos_inj; eauto. lia. Qed.
