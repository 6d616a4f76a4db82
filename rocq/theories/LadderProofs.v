(** The graph of a program without branches: the invariant of its construction. *)
From Verif Require Import ListLemmas.
From Verif Require Export CfgProofs3 CfgProofs5 BuiltProofs FlowModel.
From Coq Require Import ZifyBool ZifyNat Permutation.

(** Passing over nodes when edges to a new node are added. *)
Lemma through_iff R R' P u v : (forall x y, R x y <-> R' x y) -> through R P u v <-> through R' P u v.
Proof.
  assert (H : forall R R' : rel, (forall x y, R x y -> R' x y) -> forall u l v, walk R u l v -> walk R' u l v) by (intros A B H x l y W; induction W; econstructor; eauto).
  intros E. split; intros (l & W & F); exists l; (split; [|exact F]); revert W; apply H; intros; now apply E.
Qed.
Lemma through_on (R : rel) (P P' : Z -> Prop) u v : (forall x y, R x y -> (P x <-> P' x)) -> through R P u v <-> through R P' u v.
Proof.
  assert (H : forall P P' : Z -> Prop, (forall x y, R x y -> P x -> P' x) -> forall u l v, walk R u l v -> Forall P l -> Forall P' l).
  { intros A B H x l y W. induction W as [x y Q|x w l y Q W IH]; intros F; [constructor|]. inversion F; subst. constructor; [|auto]. inversion W; subst; eapply H; eauto. }
  intros E. split; intros (l & W & F); exists l; (split; [exact W|]); revert F; eapply H; eauto; intros; eapply E; eauto.
Qed.
Lemma through_edge (R : rel) P u v : R u v -> through R P u v. Proof. intros H. exists []. split; [now constructor|constructor]. Qed.
Lemma through_step (R : rel) (P : Z -> Prop) u w v : R u w -> P w -> through R P w v -> through R P u v.
Proof. intros H Q (l & W & F). exists (w :: l). split; [now constructor|now constructor]. Qed.
Lemma through_trans (R : rel) (P : Z -> Prop) u w v : through R P u w -> P w -> through R P w v -> through R P u v.
Proof. intros (l & W & F). induction W as [x y Q|x z l y Q W IH]; intros Py T; [eapply through_step; eauto|]. inversion F; subst. eapply through_step; eauto. Qed.
Lemma through_fresh (R R' : rel) (P S : Z -> Prop) b : (forall x y, R' x y <-> R x y \/ (S x /\ y = b)) -> (forall x, ~ R b x) -> (forall x, ~ R x b) -> ~ S b ->
  forall u v, through R' P u v <-> (v <> b /\ through R P u v) \/ (v = b /\ (S u \/ exists x, S x /\ P x /\ through R P u x)).
Proof.
  intros E Nb Nb' Sb u v. assert (Sub : forall u v, through R P u v -> through R' P u v).
  { intros x y (l & W & F). exists l. split; [|exact F]. clear F. induction W; econstructor; eauto; apply E; auto. }
  split.
  - intros (l & W & F). induction W as [x y Q|x w l y Q W IH].
    + apply E in Q as [Q|[Q ->]]; [left; split; [intros ->; eapply Nb'; eauto|now apply through_edge]|right; auto].
    + inversion F as [|? ? Fw Fl]; subst. apply E in Q as [Q|[Q ->]].
      * destruct (IH Fl) as [[A B]|[A [B|(z & B1 & B2 & B3)]]]; [left; split; [auto|eapply through_step; eauto]| |]; right; (split; [auto|right]).
        -- exists w. split; [auto|]. split; [auto|]. now apply through_edge.
        -- exists z. split; [auto|]. split; [auto|]. eapply through_step; eauto.
      * exfalso. inversion W as [? ? Q'|? ? ? ? Q']; subst; apply E in Q' as [Q'|[Q' _]]; eauto; eapply Nb; eauto.
  - intros [[_ T]|[-> [T|(z & T1 & T2 & T3)]]]; [auto|apply through_edge, E; auto|]. eapply through_trans; [apply Sub; exact T3|auto|]. apply through_edge, E. auto.
Qed.

(** From one block of a list to a later one over blocks that may be skipped. *)
Definition hop (C : list Z) (skip : Z -> bool) (u v : Z) : Prop := exists a b d, C = a ++ u :: b ++ v :: d /\ Forall (fun x => skip x = true) b.
Definition tail_of (C : list Z) (skip : Z -> bool) (u : Z) : Prop := exists a m, C = a ++ u :: m /\ Forall (fun x => skip x = true) m.
Lemma hop_ext C s s' u v : (forall x, In x C -> s x = s' x) -> hop C s u v -> hop C s' u v.
Proof. intros H (a & b & d & -> & F). exists a, b, d. split; [auto|]. rewrite Forall_forall in *. intros x I. rewrite <- H; [auto|]. apply in_app_iff. right. right. apply in_app_iff. auto. Qed.
Lemma tail_ext C s s' u : (forall x, In x C -> s x = s' x) -> tail_of C s u -> tail_of C s' u.
Proof. intros H (a & m & -> & F). exists a, m. split; [auto|]. rewrite Forall_forall in *. intros x I. rewrite <- H; [auto|]. apply in_app_iff. right. right. auto. Qed.
Lemma hop_snoc C skip b u v : ~ In b C -> hop (C ++ [b]) skip u v <-> (v <> b /\ hop C skip u v) \/ (v = b /\ tail_of C skip u).
Proof.
  intros N. split.
  - intros (a & m & d & E & F). destruct d as [|y d] using rev_ind.
    + right. replace (a ++ u :: m ++ [v]) with ((a ++ u :: m) ++ [v]) in E by (rewrite <- app_assoc; reflexivity). apply app_inj_tail in E as [E ->]. split; [auto|]. exists a, m. auto.
    + clear IHd. left. replace (a ++ u :: m ++ v :: d ++ [y]) with ((a ++ u :: m ++ v :: d) ++ [y]) in E by (rewrite <- app_assoc; cbn [app]; rewrite <- app_assoc; reflexivity). apply app_inj_tail in E as [E ->]. split; [|exists a, m, d; auto].
      intros ->. apply N. rewrite E. apply in_app_iff. right. right. apply in_app_iff. right. left. auto.
  - intros [[_ (a & m & d & -> & F)]|[-> (a & m & -> & F)]].
    + exists a, m, (d ++ [b]). split; [|auto]. rewrite <- !app_assoc. cbn [app]. rewrite <- !app_assoc. reflexivity.
    + exists a, m, []. split; [|auto]. rewrite <- app_assoc. reflexivity.
Qed.
Lemma tail_snoc C skip b u : tail_of (C ++ [b]) skip u <-> u = b \/ (skip b = true /\ tail_of C skip u).
Proof.
  split.
  - intros (a & m & E & F). destruct m as [|y m] using rev_ind.
    + apply app_inj_tail in E as [_ ->]. auto.
    + clear IHm. right. replace (a ++ u :: m ++ [y]) with ((a ++ u :: m) ++ [y]) in E by (rewrite <- app_assoc; reflexivity). apply app_inj_tail in E as [-> ->]. apply Forall_app in F as [F1 F2]. split; [now inversion F2|]. exists a, m. auto.
  - intros [->|[S (a & m & -> & F)]]; [exists C, []; auto|]. exists a, (m ++ [b]). rewrite <- app_assoc. split; [reflexivity|]. apply Forall_app. split; [auto|]. constructor; auto.
Qed.

(** ** The invariant *)
Definition first_cond (p : list cinst) (st : cfg) (b : Z) : Z := match instructions st b with [] => 14 | i :: _ => cond_at p i end.
Definition no_branch (p : list cinst) : Prop := forall i c, nth_error p i = Some c -> ci_undefined c = false -> ci_branch c = false.
(** The blocks are the longest pieces with one condition. *)
Record pieces (p : list cinst) (k : nat) (st : cfg) (B : list Z) : Prop := Pieces {
  pc_all : flat_map (instructions st) B = defined p k;
  pc_one : forall b, In b B -> instructions st b <> [] /\ forall i, In i (instructions st b) -> cond_at p i = first_cond p st b;
  pc_next : forall a u v d, B = a ++ u :: v :: d -> first_cond p st u <> first_cond p st v }.
Definition skips (p : list cinst) (st : cfg) (b : Z) : bool := negb (first_cond p st b =? 14).
Record ladder (p : list cinst) (k : nat) (st : cfg) (cb : Z) (lf lc : option Z) (B : list Z) : Prop := Ladder {
  la_pending : c_pending st = [];
  la_root : kind_of st 1 = Some KRoot; la_end : kind_of st 2 = Some KEnd;
  la_nodes : filter (fun n => negb (is_conditional st n) && negb (n =? 2)) (nodes st) = 1 :: B;
  la_last : exists C, 1 :: B = C ++ [cb] /\ forall n, lc = Some n -> is_conditional st n = true /\ forall u, is_conditional st u = false -> through (edg st) (fun z => is_conditional st z = true) u n <-> tail_of C (skips p st) u;
  la_edges : forall u v, is_conditional st u = false -> is_conditional st v = false -> through (edg st) (fun z => is_conditional st z = true) u v <-> hop (1 :: B) (skips p st) u v;
  la_cond : skips p st cb = true <-> lc <> None;
  la_noend : forall x, ~ edg st x 2 /\ ~ edg st 2 x;
  la_field : lf = if cb =? 1 then None else Some (first_cond p st cb);
  la_pieces : pieces p k st B }.
Lemma kind_conditional st n : kind_of st n = Some KCond <-> is_conditional st n = true.
Proof. unfold kind_of, is_conditional. destruct (dget (c_blocks st) n) as [[[] l]|]; split; congruence. Qed.
Lemma kind_conditional_b st n : is_conditional st n = match kind_of st n with Some KCond => true | _ => false end.
Proof. unfold kind_of, is_conditional. destruct (dget (c_blocks st) n) as [[[] l]|]; auto. Qed.
Lemma two_last {A} (B0 : list A) w a u v d : B0 ++ [w] = a ++ u :: v :: d -> (d = [] /\ w = v /\ B0 = a ++ [u]) \/ exists d0, d = d0 ++ [w] /\ B0 = a ++ u :: v :: d0.
Proof.
  intros E. destruct d as [|y d] using rev_ind.
  - left. replace (a ++ [u; v]) with ((a ++ [u]) ++ [v]) in E by (rewrite <- app_assoc; reflexivity). apply app_inj_tail in E as [E ->]. auto.
  - clear IHd. right. replace (a ++ u :: v :: d ++ [y]) with ((a ++ u :: v :: d) ++ [y]) in E by (rewrite <- app_assoc; reflexivity). apply app_inj_tail in E as [E ->]. eauto.
Qed.
Lemma pieces_new p k st st' B b c : (forall x, instructions st' x = if x =? b then [k] else instructions st x) -> ~ In b B -> nth_error p k = Some c -> ci_undefined c = false ->
  (forall B0 u, B = B0 ++ [u] -> first_cond p st u <> ci_cond c) -> pieces p k st B -> pieces p (S k) st' (B ++ [b]).
Proof.
  intros I N Ec U Hl [P1 P2 P3]. assert (Fo : forall x, x <> b -> first_cond p st' x = first_cond p st x) by (intros x X; unfold first_cond; rewrite I; now destruct (Z.eqb_spec x b)).
  assert (Fb : first_cond p st' b = ci_cond c) by (unfold first_cond, cond_at; now rewrite I, Z.eqb_refl, Ec).
  assert (Nb : forall x, In x B -> x <> b) by (intros x X ->; auto).
  split.
  - rewrite flat_map_app. cbn [flat_map]. rewrite app_nil_r, I, Z.eqb_refl, defined_S. unfold is_defined. rewrite Ec, U. cbn [negb]. f_equal. rewrite <- P1. apply insts_same_on. intros x X. rewrite I. destruct (Z.eqb_spec x b); [exfalso; eapply Nb; eauto|auto].
  - intros x X. rewrite in_app_iff in X. cbn [In] in X. rewrite I. destruct (Z.eqb_spec x b) as [->|Q].
    + split; [discriminate|]. intros i [<-|[]]. rewrite Fb. unfold cond_at. now rewrite Ec.
    + rewrite Fo by auto. apply P2. destruct X as [X|[X|[]]]; [auto|congruence].
  - intros a u v d E. apply two_last in E as [(-> & -> & E)|(d0 & -> & E)].
    + rewrite Fb, Fo; [eapply Hl; eauto|]. apply Nb. rewrite E. apply in_app_iff. right. left. auto.
    + rewrite !Fo; [eapply P3; eauto|..]; apply Nb; rewrite E; apply in_app_iff; right; [right; left|left]; auto.
Qed.
Lemma pieces_skip p k st B c : nth_error p k = Some c -> ci_undefined c = true -> pieces p k st B -> pieces p (S k) st B.
Proof. intros Ec U [P1 P2 P3]. split; [|auto|auto]. rewrite defined_S. unfold is_defined. rewrite Ec, U. cbn [negb]. now rewrite app_nil_r. Qed.
Lemma pieces_more p k st st' B b c : (forall x, instructions st' x = if x =? b then instructions st b ++ [k] else instructions st x) -> NoDup (B ++ [b]) -> nth_error p k = Some c -> ci_undefined c = false ->
  first_cond p st b = ci_cond c -> pieces p k st (B ++ [b]) -> pieces p (S k) st' (B ++ [b]) /\ forall x, first_cond p st' x = first_cond p st x.
Proof.
  intros I N Ec U Hc [P1 P2 P3]. assert (Nb : instructions st b <> []) by (apply P2, in_app_iff; right; left; auto).
  assert (Fo : forall x, first_cond p st' x = first_cond p st x). { intros x. unfold first_cond. rewrite I. destruct (Z.eqb_spec x b) as [->|]; [|auto]. destruct (instructions st b); [contradiction|reflexivity]. }
  apply NoDup_remove_2 in N. rewrite app_nil_r in N. split; [|exact Fo]. split.
  - rewrite flat_map_app in *. cbn [flat_map] in *. rewrite app_nil_r in *. rewrite I, Z.eqb_refl, defined_S. unfold is_defined. rewrite Ec, U. cbn [negb]. rewrite <- P1, <- app_assoc. f_equal. apply insts_same_on. intros x X. rewrite I. destruct (Z.eqb_spec x b); [subst; contradiction|auto].
  - intros x X. rewrite I, Fo. destruct (Z.eqb_spec x b) as [->|Q]; [|now apply P2]. split; [destruct (instructions st b); discriminate|]. intros i J. apply in_app_iff in J as [J|[<-|[]]]; [now apply P2|]. unfold cond_at. now rewrite Ec.
  - intros a u v d E. rewrite !Fo. eapply P3; eauto.
Qed.
Lemma not_branch_last p k st x : no_branch p -> core p k k st -> last_is_branch p st x = false.
Proof.
  intros Nb C. unfold last_is_branch. destruct (rev (instructions st x)) as [|i l] eqn:E; [auto|]. assert (I : In i (instructions st x)) by (rewrite in_rev, E; left; auto).
  destruct (co_seg _ _ _ _ C x) as (a & d & S). assert (D : In i (defined p k)) by (rewrite S, !in_app_iff; auto). apply defined_in in D as [_ D]. unfold is_defined in D. destruct (nth_error p i) as [c|] eqn:Ec; [|auto]. destruct (ci_undefined c) eqn:U; [discriminate|]. eapply Nb; eauto.
Qed.
Lemma last_is_branch_same p st st' x : instructions st' x = instructions st x -> last_is_branch p st' x = last_is_branch p st x.
Proof. unfold last_is_branch. now intros ->. Qed.

Lemma ladder_step p k st cb lf lc B c : no_branch p -> Inv p k (st, (cb, lf, lc)) -> ladder p k st cb lf lc B -> nth_error p k = Some c ->
  exists st' cb' lf' lc' B', build_step p 2 (st, (cb, lf, lc)) (k, c) = Ok (st', (cb', lf', lc')) /\ Inv p (S k) (st', (cb', lf', lc')) /\ ladder p (S k) st' cb' lf' lc' B'.
Proof.
  intros Hn HI L Ec. destruct (build_step_ok p k _ c HI Ec) as ([st' [[cb' lf'] lc']] & E & HI' & _). cbn [fst] in *. destruct HI as (C & Bn & Ln & Fn). pose proof (co_good _ _ _ _ C) as G. pose proof (co_last _ _ _ _ C) as Lg. assert (Lg0 : 0 <= c_last st) by (clear -Lg; lia).
  cut (exists B', ladder p (S k) st' cb' lf' lc' B'); [intros (B' & L'); exists st', cb', lf', lc', B'; auto|]. clear HI'. revert E.
  destruct L as [Lp Lr Le Lno (C0 & EC & Lc) Led Lcd Lne Lf Lpc]. unfold build_step.
  assert (ND : NoDup (1 :: B)) by (rewrite <- Lno; apply NoDup_filter, good_nodup, G).
  assert (Inn : forall x, In x (1 :: B) -> In x (nodes st) /\ is_conditional st x = false /\ x <> 2) by (intros x X; rewrite <- Lno, filter_In in X; destruct X as [X1 X2]; destruct (is_conditional st x); [discriminate|]; destruct (Z.eqb_spec x 2); [discriminate|]; auto).
  destruct (Inn cb) as (_ & Ccb & Ncb2); [rewrite EC; apply in_app_iff; right; left; auto|].
  assert (C2 : is_conditional st 2 = false) by (now rewrite kind_conditional_b, Le).
  destruct (ci_undefined c) eqn:U.
  { intros [= <- <- <- <-]. exists B. split; auto; [exists C0; auto|eapply pieces_skip; eauto]. }
  pose proof (Hn k c Ec U) as Br. rewrite Br. rewrite Lp. cbn [dget].
  destruct (match lf with Some f => ci_cond c =? f | None => false end) eqn:T.
  { intros [= <- <- <- <-]. destruct (Z.eqb_spec cb 1) as [Q|Q]; [rewrite Lf in T; discriminate|]. rewrite Lf in T.
    destruct C0 as [|y C1]; [injection EC as EC _; congruence|]. injection EC as <- EB. destruct (set_inst_ok st cb (instructions st cb ++ [k]) G Bn) as (_ & S1 & _ & S3 & S4 & S5). set (st' := set_instructions st cb (instructions st cb ++ [k])) in *. clearbody st'.
    assert (NB : NoDup (C1 ++ [cb])) by (rewrite <- EB; now inversion ND). rewrite EB in Lpc. destruct (pieces_more p k st st' C1 cb c S4 NB Ec U (eq_sym (proj1 (Z.eqb_eq _ _) T)) Lpc) as [Pc Fc].
    assert (Ic : forall x, is_conditional st' x = is_conditional st x) by (intros x; now rewrite !kind_conditional_b, S5).
    assert (Sk : forall x, skips p st' x = skips p st x) by (intros x; unfold skips; now rewrite Fc).
    assert (Ed : forall x y, edg st' x y <-> edg st x y) by (intros x y; unfold edg; now rewrite S1).
    assert (Tr : forall u v, through (edg st') (fun z => is_conditional st' z = true) u v <-> through (edg st) (fun z => is_conditional st z = true) u v).
    { intros u v. rewrite (through_iff _ _ _ u v Ed). apply through_on. intros x y _. now rewrite Ic. }
    exists B. split.
    - congruence.
    - now rewrite S5.
    - now rewrite S5.
    - unfold nodes. rewrite S1. rewrite <- Lno. apply filter_ext. intros x. now rewrite Ic.
    - exists (1 :: C1). split; [now rewrite EB|]. intros n En. rewrite Ic. split; [now apply Lc|]. intros u Cu. rewrite Ic in Cu. rewrite Tr. rewrite (proj2 (Lc n En) u Cu). split; apply tail_ext; intros; now rewrite Sk.
    - intros u v Cu Cv. rewrite Ic in Cu, Cv. rewrite Tr, (Led u v Cu Cv). split; apply hop_ext; intros; now rewrite Sk.
    - now rewrite Sk.
    - intros x. rewrite !Ed. apply Lne.
    - rewrite Fc. destruct (Z.eqb_spec cb 1); [contradiction|exact Lf].
    - now rewrite EB. }
  unfold branch_conditional. destruct (new_node_ok st KBlock [k] G ltac:(discriminate) Lg0) as (st1 & E1 & G1 & L1 & P1 & N1 & Ed1 & I1 & K1). assert (Fb : ~ In (c_last st + 1) (nodes st)) by (apply fresh; auto). rewrite E1. cbn [bind]. remember (c_last st + 1) as b eqn:Hb.
  assert (Cb1 : In cb (nodes st1)) by (rewrite N1; apply in_app_iff; auto). assert (Bb1 : In b (nodes st1)) by (rewrite N1; apply in_app_iff; right; left; auto).
  assert (Ncb : cb <> b) by (intros Q; rewrite Q in Bn; auto).
  assert (NE : forall x, ~ edg st x b /\ ~ edg st b x) by (intros x; split; intros Q; apply (edg_nodes _ _ _ G) in Q; tauto).
  assert (Hl : forall B0 u, B = B0 ++ [u] -> first_cond p st u <> ci_cond c).
  { intros B0 u EB. rewrite EB in EC. change (1 :: B0 ++ [u]) with ((1 :: B0) ++ [u]) in EC. apply app_inj_tail in EC as [_ ->]. assert (Q : cb <> 1). { intros Q. inversion ND as [|? ? X _]; subst. apply X, in_app_iff. right. left. auto. }
    rewrite Lf in T. destruct (Z.eqb_spec cb 1); [contradiction|]. intros Q2. rewrite Q2, Z.eqb_refl in T. discriminate. }
  assert (NbB : ~ In b (1 :: B)) by (intros X; apply Inn in X; tauto).
  assert (NbB' : ~ In b B) by (intros X; apply NbB; right; auto).
  assert (b1 : b <> 1 /\ b <> 2) by (clear -Hb Lg; lia). destruct b1 as [b1 b2].
  assert (LB : last_is_branch p st1 cb = false). { rewrite (last_is_branch_same p st); [eapply not_branch_last; eauto|]. rewrite I1. destruct (Z.eqb_spec cb b); [contradiction|auto]. }
  assert (Ccl : is_conditional st b = false) by (rewrite kind_conditional_b; destruct (outside st b G Fb) as [_ ->]; auto).
  (* what reaches the next node *)
  assert (Rch : forall u, is_conditional st u = false -> (u = cb \/ lc = Some u) \/ (exists x, (x = cb \/ lc = Some x) /\ is_conditional st x = true /\ through (edg st) (fun z => is_conditional st z = true) u x) <-> tail_of (1 :: B) (skips p st) u).
  { intros u Cu. rewrite EC, tail_snoc, Lcd. split.
    - intros [[->|Q]|(x & [->|Q] & Cx & Tx)]; [auto| |congruence|].
      + destruct (Lc u Q). congruence.
      + right. split; [congruence|]. now apply (proj2 (Lc x Q) u Cu).
    - intros [->|[Q Tl]]; [auto|]. destruct lc as [n|]; [|contradiction]. destruct (Lc n eq_refl) as [Cn Hn']. right. exists n. split; [auto|]. split; [auto|]. now apply Hn'. }
  assert (NSb : ~ (b = cb \/ lc = Some b)) by (intros [Q|Q]; [congruence|apply Ln in Q; auto]).
  destruct (ci_cond c =? cond_always) eqn:Al.
  - rewrite LB. destruct (edge_add_ok st1 cb b G1 Cb1 Bb1 ltac:(rewrite Ed1; apply NE)) as (st2 & E2 & G2 & S2 & Ed2). rewrite E2. cbn [bind].
    assert (X : exists st3, match lc with Some lc => edge_add_once st2 lc b | None => Ok st2 end = Ok st3 /\ good st3 /\ same st2 st3 /\ forall x y, edg st3 x y <-> edg st x y \/ ((x = cb \/ lc = Some x) /\ y = b)).
    { destruct lc as [n|].
      - destruct (edge_add_once_ok st2 n b G2) as (st3 & E3 & G3 & S3 & Ed3); [destruct S2 as (_ & _ & _ & ->); rewrite N1; apply in_app_iff; left; now apply Ln|destruct S2 as (_ & _ & _ & ->); auto|]. exists st3. split; [auto|]. split; [auto|]. split; [auto|].
        intros x y. rewrite Ed3, Ed2, Ed1. split; [intros [[?|[-> ->]]|[-> ->]]; auto|intros [?|[[->|[= ->]] ->]]; auto].
      - exists st2. split; [auto|]. split; [auto|]. split; [apply same_refl|]. intros x y. rewrite Ed2, Ed1. split; [intros [?|[-> ->]]; auto|intros [?|[[->|?] ->]]; auto; discriminate]. }
    destruct X as (st3 & E3 & G3 & S3 & Ed3). rewrite E3. cbn [bind]. intros [= <- <- <- <-]. pose proof (same_trans _ _ _ S2 S3) as S13.
    assert (I3 : forall x, instructions st3 x = if x =? b then [k] else instructions st x) by (intros x; now rewrite (same_inst _ _ x S13)).
    assert (K3 : forall x, kind_of st3 x = if x =? b then Some KBlock else kind_of st x) by (intros x; now rewrite (same_kind _ _ x S13), K1).
    assert (Ic : forall x, is_conditional st3 x = is_conditional st x). { intros x. rewrite !kind_conditional_b, K3. destruct (Z.eqb_spec x b) as [->|]; [|auto]. now rewrite kind_conditional_b in Ccl. }
    pose proof (pieces_new p k st st3 B b c I3 NbB' Ec U Hl Lpc) as Pc.
    assert (Sk : forall x, x <> b -> skips p st3 x = skips p st x) by (intros x X; unfold skips, first_cond; rewrite I3; now destruct (Z.eqb_spec x b)).
    assert (Fc : first_cond p st3 b = ci_cond c) by (unfold first_cond, cond_at; now rewrite I3, Z.eqb_refl, Ec).
    assert (Sb : skips p st3 b = false) by (unfold skips; change 14 with cond_always; rewrite Fc, Al; auto).
    exists (B ++ [b]). split.
    + destruct S13 as (_ & _ & -> & _). congruence.
    + rewrite K3. destruct (Z.eqb_spec 1 b) as [Q|_]; [destruct (b1 (eq_sym Q))|auto].
    + rewrite K3. destruct (Z.eqb_spec 2 b) as [Q|_]; [destruct (b2 (eq_sym Q))|auto].
    + destruct S13 as (_ & _ & _ & ->). rewrite N1, filter_app. cbn [filter]. rewrite Ic, Ccl. destruct (Z.eqb_spec b 2) as [Q|_]; [destruct (b2 Q)|]. cbn [negb andb]. rewrite app_comm_cons, <- Lno. f_equal. apply filter_ext. intros x. now rewrite Ic.
    + exists (1 :: B). split; [reflexivity|]. intros n Q; discriminate.
    + intros u v Cu Cv. rewrite Ic in Cu, Cv. rewrite app_comm_cons, (hop_snoc (1 :: B)) by auto.
      rewrite (through_fresh (edg st) (edg st3) _ (fun x => x = cb \/ lc = Some x) b) by (try exact Ed3; try (intros x; apply NE); exact NSb).
      assert (TT : forall x y, through (edg st) (fun z => is_conditional st3 z = true) x y <-> through (edg st) (fun z => is_conditional st z = true) x y) by (intros x y; apply through_on; intros z w _; now rewrite Ic).
      rewrite TT, (Led u v Cu Cv). assert (H : hop (1 :: B) (skips p st) u v <-> hop (1 :: B) (skips p st3) u v) by (split; apply hop_ext; intros x X; rewrite Sk; auto; intros ->; auto). rewrite H.
      assert (H2 : tail_of (1 :: B) (skips p st3) u <-> tail_of (1 :: B) (skips p st) u) by (split; apply tail_ext; intros x X; rewrite Sk; auto; intros ->; auto). rewrite H2, <- (Rch u Cu).
      assert (H3 : (exists x, (x = cb \/ lc = Some x) /\ is_conditional st3 x = true /\ through (edg st) (fun z => is_conditional st3 z = true) u x) <-> (exists x, (x = cb \/ lc = Some x) /\ is_conditional st x = true /\ through (edg st) (fun z => is_conditional st z = true) u x)) by (split; intros (x & X1 & X2 & X3); exists x; (split; [auto|]); split; [rewrite <- Ic; auto|now apply TT|rewrite Ic; auto|now apply TT]). rewrite H3. reflexivity.
    + rewrite Sb. split; [discriminate|congruence].
    + intros x. rewrite !Ed3. split; intros [Q|[Q Q2]]; [exact (proj1 (Lne _) Q)|congruence|exact (proj2 (Lne _) Q)|]. destruct Q as [Q|Q]; [congruence|]. apply Lc in Q as [Q _]. congruence.
    + destruct (Z.eqb_spec b 1) as [Q|_]; [destruct (b1 Q)|]. now rewrite Fc.
    + exact Pc.
  - assert (Lg1 : 0 <= c_last st1) by (rewrite L1, Hb; clear -Lg; lia). destruct (new_node_ok st1 KCond [] G1 ltac:(discriminate) Lg1) as (st2 & E2 & G2 & L2 & P2 & N2 & Ed2 & I2 & K2). assert (Fn1 : ~ In (c_last st1 + 1) (nodes st1)) by (apply fresh; auto). rewrite E2. cbn [bind]. remember (c_last st1 + 1) as n eqn:Hn1.
    assert (n1 : n <> 1 /\ n <> 2) by (clear -Hn1 Hb Lg L1; lia). destruct n1 as [n1 n2].
    assert (Fn0 : ~ In n (nodes st)) by (intros X; apply Fn1; rewrite N1; apply in_app_iff; auto). assert (Nbn : b <> n) by (intros Q; rewrite Q in Bb1; auto). assert (Ncn : cb <> n) by (intros Q; rewrite Q in Bn; auto).
    assert (NE2 : forall x, ~ edg st x n /\ ~ edg st n x) by (intros x; split; intros Q; apply (edg_nodes _ _ _ G) in Q; tauto).
    assert (In2 : forall x, In x (nodes st2) <-> In x (nodes st) \/ x = b \/ x = n) by (intros x; rewrite N2, N1, !in_app_iff; cbn [In]; split; [intros [[?|[?|[]]]|[?|[]]]; auto|intros [?|[?|?]]; auto]).
    destruct (edge_add_ok st2 n b G2) as (st3 & E3 & G3 & S3 & Ed3); [apply In2; auto|apply In2; auto|rewrite Ed2, Ed1; apply NE|]. rewrite E3. cbn [bind].
    assert (LB3 : last_is_branch p st3 cb = false). { rewrite (last_is_branch_same p st1); [auto|]. rewrite (same_inst _ _ _ S3), I2. destruct (Z.eqb_spec cb n); [contradiction|auto]. } rewrite LB3.
    assert (In3 : forall x, In x (nodes st3) <-> In x (nodes st) \/ x = b \/ x = n) by (intros x; destruct S3 as (_ & _ & _ & ->); apply In2).
    destruct (edge_add_ok st3 cb n G3) as (st4 & E4 & G4 & S4 & Ed4); [apply In3; auto|apply In3; auto|rewrite Ed3, Ed2, Ed1; intros [Q|[Q _]]; [exact (proj1 (NE2 _) Q)|congruence]|]. rewrite E4. cbn [bind].
    assert (In4 : forall x, In x (nodes st4) <-> In x (nodes st) \/ x = b \/ x = n) by (intros x; destruct S4 as (_ & _ & _ & ->); apply In3).
    assert (X : exists st5, match lc with Some lc => edge_add_once st4 lc n | None => Ok st4 end = Ok st5 /\ good st5 /\ same st4 st5 /\ forall x y, edg st5 x y <-> (edg st x y \/ ((x = cb \/ lc = Some x) /\ y = n)) \/ (x = n /\ y = b)).
    { destruct lc as [m|].
      - destruct (edge_add_once_ok st4 m n G4) as (st5 & E5 & G5 & S5 & Ed5); [apply In4; left; now apply Ln|apply In4; auto|]. exists st5. split; [auto|]. split; [auto|]. split; [auto|].
        intros x y. rewrite Ed5, Ed4, Ed3, Ed2, Ed1. split; [intros [[[?|[-> ->]]|[-> ->]]|[-> ->]]; auto 6|intros [[?|[[->|[= ->]] ->]]|[-> ->]]; auto 6].
      - exists st4. split; [auto|]. split; [auto|]. split; [apply same_refl|]. intros x y. rewrite Ed4, Ed3, Ed2, Ed1. split; [intros [[?|[-> ->]]|[-> ->]]; auto 6|intros [[?|[[->|?] ->]]|[-> ->]]; auto 6; discriminate]. }
    destruct X as (st5 & E5 & G5 & S5 & Ed5). rewrite E5. cbn [bind]. pose proof (same_trans _ _ _ (same_trans _ _ _ S3 S4) S5) as S25. clear E1 E2 E3 E4 E5 S3 S4 S5 Ed1 Ed2 Ed3 Ed4.
    assert (P5 : c_pending st5 = []) by (destruct S25 as (_ & _ & -> & _); congruence). rewrite P5. cbn [dget bind]. intros [= <- <- <- <-].
    assert (I5 : forall x, instructions st5 x = if x =? b then [k] else instructions st x).
    { intros x. rewrite (same_inst _ _ x S25), I2, I1. destruct (Z.eqb_spec x n) as [->|]; [|auto]. destruct (Z.eqb_spec n b); [congruence|]. symmetry. exact (proj1 (outside st n G Fn0)). }
    assert (K5 : forall x, kind_of st5 x = if x =? n then Some KCond else if x =? b then Some KBlock else kind_of st x) by (intros x; now rewrite (same_kind _ _ x S25), K2, K1).
    assert (Cn : is_conditional st5 n = true) by (now rewrite kind_conditional_b, K5, Z.eqb_refl).
    assert (Ic : forall x, x <> n -> is_conditional st5 x = is_conditional st x). { intros x X. rewrite !kind_conditional_b, K5. destruct (Z.eqb_spec x n); [contradiction|]. destruct (Z.eqb_spec x b) as [->|]; [|auto]. now rewrite kind_conditional_b in Ccl. }
    assert (Cn0 : is_conditional st n = false) by (rewrite kind_conditional_b; destruct (outside st n G Fn0) as [_ ->]; auto).
    pose proof (pieces_new p k st st5 B b c I5 NbB' Ec U Hl Lpc) as Pc.
    assert (Sk : forall x, x <> b -> skips p st5 x = skips p st x) by (intros x X; unfold skips, first_cond; rewrite I5; now destruct (Z.eqb_spec x b)).
    assert (Fc : first_cond p st5 b = ci_cond c) by (unfold first_cond, cond_at; now rewrite I5, Z.eqb_refl, Ec).
    assert (Sb : skips p st5 b = true) by (unfold skips; change 14 with cond_always; rewrite Fc, Al; auto).
    assert (NSn : ~ (n = cb \/ lc = Some n)) by (intros [Q|Q]; [congruence|apply Ln in Q; auto]).
    set (R1 := fun x y => edg st x y \/ ((x = cb \/ lc = Some x) /\ y = n)).
    assert (TT : forall x y, through (edg st) (fun z => is_conditional st5 z = true) x y <-> through (edg st) (fun z => is_conditional st z = true) x y).
    { intros x y. apply through_on. intros z w Q. rewrite Ic; [reflexivity|]. intros ->. exact (proj2 (NE2 _) Q). }
    assert (T1 : forall u v, through R1 (fun z => is_conditional st5 z = true) u v <-> (v <> n /\ through (edg st) (fun z => is_conditional st z = true) u v) \/ (v = n /\ ((u = cb \/ lc = Some u) \/ exists x, (x = cb \/ lc = Some x) /\ is_conditional st x = true /\ through (edg st) (fun z => is_conditional st z = true) u x))).
    { intros u v. rewrite (through_fresh (edg st) R1 _ (fun x => x = cb \/ lc = Some x) n) by (try (intros x y; reflexivity); try (intros x; apply NE2); exact NSn). rewrite TT.
      assert (H3 : (exists x, (x = cb \/ lc = Some x) /\ is_conditional st5 x = true /\ through (edg st) (fun z => is_conditional st5 z = true) u x) <-> (exists x, (x = cb \/ lc = Some x) /\ is_conditional st x = true /\ through (edg st) (fun z => is_conditional st z = true) u x)); [|rewrite H3; reflexivity].
      split; intros (x & X1 & X2 & X3); exists x; (split; [auto|]); (assert (Xn : x <> n) by (intros ->; destruct X1 as [X1|X1]; [congruence|apply Ln in X1; auto])); rewrite (Ic x Xn) in *; (split; [auto|]); now apply TT. }
    assert (T2 : forall u v, through (edg st5) (fun z => is_conditional st5 z = true) u v <-> (v <> b /\ through R1 (fun z => is_conditional st5 z = true) u v) \/ (v = b /\ (u = n \/ exists x, x = n /\ is_conditional st5 x = true /\ through R1 (fun z => is_conditional st5 z = true) u x))).
    { intros u v. apply (through_fresh R1 (edg st5) _ (fun x => x = n) b); [exact Ed5| | |auto].
      - intros x [Q|[[Q|Q] _]]; [exact (proj2 (NE _) Q)|congruence|apply Ln in Q; auto].
      - intros x [Q|[_ Q]]; [exact (proj1 (NE _) Q)|congruence]. }
    assert (H2 : forall u, tail_of (1 :: B) (skips p st5) u <-> tail_of (1 :: B) (skips p st) u) by (intros u; split; apply tail_ext; intros x X; rewrite Sk; auto; intros ->; auto).
    assert (TN : forall u, is_conditional st5 u = false -> through R1 (fun z => is_conditional st5 z = true) u n <-> tail_of (1 :: B) (skips p st5) u).
    { intros u Cu. assert (Un : u <> n) by (intros ->; congruence). rewrite (Ic u Un) in Cu. rewrite T1, H2, <- (Rch u Cu). split; [intros [[Q _]|[_ Q]]; [congruence|exact Q]|intros Q; right; auto]. }
    exists (B ++ [b]). split.
    + exact P5.
    + rewrite K5. destruct (Z.eqb_spec 1 n) as [Q|_]; [destruct (n1 (eq_sym Q))|]. destruct (Z.eqb_spec 1 b) as [Q|_]; [destruct (b1 (eq_sym Q))|auto].
    + rewrite K5. destruct (Z.eqb_spec 2 n) as [Q|_]; [destruct (n2 (eq_sym Q))|]. destruct (Z.eqb_spec 2 b) as [Q|_]; [destruct (b2 (eq_sym Q))|auto].
    + destruct S25 as (_ & _ & _ & ->). rewrite N2, N1, !filter_app. cbn [filter]. rewrite Cn, (Ic b Nbn), Ccl. destruct (Z.eqb_spec b 2) as [Q|_]; [destruct (b2 Q)|]. cbn [negb andb]. rewrite app_nil_r, app_comm_cons, <- Lno. f_equal. apply filter_ext_in. intros x X. rewrite Ic; [auto|]. intros ->. auto.
    + exists (1 :: B). split; [reflexivity|]. intros m [= <-]. split; [exact Cn|]. intros u Cu. rewrite T2, <- (TN u Cu). split; [intros [[_ Q]|[Q _]]; [exact Q|congruence]|intros Q; left; auto].
    + intros u v Cu Cv. rewrite app_comm_cons, (hop_snoc (1 :: B)) by auto. assert (Un : u <> n) by (intros ->; congruence). assert (Vn : v <> n) by (intros ->; congruence). rewrite T2, <- (TN u Cu), T1.
      rewrite (Ic u Un) in Cu. rewrite (Ic v Vn) in Cv. rewrite (Led u v Cu Cv). assert (H : hop (1 :: B) (skips p st) u v <-> hop (1 :: B) (skips p st5) u v) by (split; apply hop_ext; intros x X; rewrite Sk; auto; intros ->; auto). rewrite H.
      split; intros [[Q1 Q2]|[Q1 Q2]].
      * left. split; [auto|]. destruct Q2 as [[_ Q2]|[Q2 _]]; [auto|congruence].
      * right. split; [auto|]. destruct Q2 as [Q2|(x & -> & _ & Q2)]; [congruence|exact Q2].
      * left. auto.
      * right. split; [auto|]. right. exists n. auto.
    + rewrite Sb. split; [discriminate|auto].
    + intros x. rewrite !Ed5. split; intros [[Q|[Q Q2]]|[Q Q2]]; [exact (proj1 (Lne _) Q)|congruence|congruence|exact (proj2 (Lne _) Q)| |congruence]. destruct Q as [Q|Q]; [congruence|]. apply Lc in Q as [Q _]. congruence.
    + destruct (Z.eqb_spec b 1) as [Q|_]; [destruct (b1 Q)|]. now rewrite Fc.
    + exact Pc.
Qed.
