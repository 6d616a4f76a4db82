(** Depth-first trees, semidominators and dominators (Lengauer and Tarjan). *)
From Verif Require Import ListLemmas.
From Verif Require Export GraphProofs.
From Coq Require Import ZifyBool ZifyNat.

(** Position in a list *)
Fixpoint pos (V : list Z) (x : Z) : nat := match V with [] => O | y :: V' => if y =? x then O else S (pos V' x) end.
Lemma pos_lt V x : In x V <-> (pos V x < length V)%nat.
Proof.
  induction V as [|y V IH]; [cbn; split; [intros []|lia]|]. cbn [In pos length]. destruct (Z.eqb_spec y x) as [->|n]; [split; [lia|auto]|]. split; [intros [E|I]; [congruence|apply IH in I; lia]|intros H; right; apply IH; lia].
Qed.
Lemma pos_nth V x : In x V -> nth_error V (pos V x) = Some x.
Proof. induction V as [|y V IH]; intros I; [destruct I|]. cbn [pos]. destruct (Z.eqb_spec y x) as [->|n]; [auto|]. destruct I as [E|I]; [congruence|]. cbn. auto. Qed.
Lemma pos_inj V x y : In x V -> In y V -> pos V x = pos V y -> x = y.
Proof. intros X Y E. apply pos_nth in X, Y. rewrite E in X. congruence. Qed.
Lemma pos_app_l V W x : In x V -> pos (V ++ W) x = pos V x.
Proof. induction V as [|y V IH]; intros I; [destruct I|]. cbn. destruct (Z.eqb_spec y x) as [->|n]; [auto|]. destruct I as [E|I]; [congruence|]. now rewrite IH. Qed.
Lemma pos_app_r V W x : ~ In x V -> pos (V ++ W) x = (length V + pos W x)%nat.
Proof. induction V as [|y V IH]; intros I; [auto|]. cbn. destruct (Z.eqb_spec y x) as [->|n]; [exfalso; apply I; left; auto|]. rewrite IH; [auto|]. intros X; apply I; right; auto. Qed.

Inductive anc (par : Z -> option Z) : Z -> Z -> Prop :=
| anc_refl x : anc par x x
| anc_up a x p : par x = Some p -> anc par a p -> anc par a x.
Lemma anc_trans par a b c : anc par a b -> anc par b c -> anc par a c.
Proof. intros A B. induction B; [auto|]. eapply anc_up; eauto. Qed.

Definition dtree (E : rel) (root : Z) (V : list Z) (par : Z -> option Z) : Prop :=
  NoDup V /\
  (exists V', V = root :: V') /\
  (forall w, In w V -> w <> root -> exists p, par w = Some p /\ In p V /\ E p w /\ (pos V p < pos V w)%nat) /\
  par root = None /\
  (forall v w, In v V -> E v w -> In w V) /\
  (forall v w, In v V -> In w V -> E v w -> (pos V v < pos V w)%nat -> anc par v w) /\
  (forall a w v, In a V -> In w V -> In v V -> (pos V a <= pos V w <= pos V v)%nat -> anc par a v -> anc par a w).

Lemma root_in E root V par : dtree E root V par -> In root V.
Proof. intros (_ & (V' & ->) & _). left; auto. Qed.
Lemma root_pos E root V par : dtree E root V par -> pos V root = O.
Proof. intros (_ & (V' & ->) & _). cbn. now rewrite Z.eqb_refl. Qed.
Lemma pos_root E root V par x : dtree E root V par -> In x V -> pos V x = O -> x = root.
Proof. intros D X H. apply (pos_inj V); [auto|eapply root_in; eauto|]. now rewrite (root_pos _ _ _ _ D). Qed.
Lemma anc_in E root V par a x : dtree E root V par -> In x V -> anc par a x -> In a V.
Proof.
  intros D X A. induction A as [|a x p P A IH]; [auto|]. apply IH. destruct D as (_ & _ & T & R & _). destruct (Z.eq_dec x root) as [->|n]; [congruence|].
  destruct (T x X n) as (q & Q & I & _). congruence.
Qed.
Lemma anc_pos E root V par a x : dtree E root V par -> In x V -> anc par a x -> a = x \/ (pos V a < pos V x)%nat.
Proof.
  intros D X A. induction A as [|a x p P A IH]; [auto|]. right. pose proof D as (_ & _ & T & R & _). destruct (Z.eq_dec x root) as [->|n]; [congruence|].
  destruct (T x X n) as (q & Q & I & _ & L). assert (q = p) as -> by congruence. destruct (IH I) as [->|]; lia.
Qed.
Lemma anc_le E root V par a x : dtree E root V par -> In x V -> anc par a x -> (pos V a <= pos V x)%nat.
Proof. intros D X A. destruct (anc_pos _ _ _ _ _ _ D X A) as [->|]; lia. Qed.
Lemma anc_lt E root V par a x : dtree E root V par -> In x V -> anc par a x -> a <> x -> (pos V a < pos V x)%nat.
Proof. intros D X A. destruct (anc_pos _ _ _ _ _ _ D X A) as [->|]; [congruence|auto]. Qed.
Lemma anc_chain E root V par a b w : dtree E root V par -> In w V -> anc par a w -> anc par b w -> (pos V a <= pos V b)%nat -> anc par a b.
Proof.
  intros D W A B L. pose proof D as (_ & _ & _ & _ & _ & _ & H). apply (H a b w); auto; try (eapply anc_in; eauto). split; [auto|]. eapply anc_le; eauto.
Qed.
Lemma anc_root E root V par x : dtree E root V par -> In x V -> anc par root x.
Proof.
  intros D. pose proof D as (_ & _ & T & _). remember (pos V x) as n. revert x Heqn. induction n as [n IH] using lt_wf_ind. intros x -> X.
  destruct (Z.eq_dec x root) as [->|N]; [constructor|]. destruct (T x X N) as (p & P & I & _ & L). eapply anc_up; eauto.
Qed.
Lemma anc_dec E root V par a x : dtree E root V par -> In x V -> anc par a x \/ ~ anc par a x.
Proof.
  intros D. pose proof D as (_ & _ & T & R & _). remember (pos V x) as n. revert x Heqn. induction n as [n IH] using lt_wf_ind. intros x -> X.
  destruct (Z.eq_dec a x) as [->|N]; [left; constructor|]. destruct (Z.eq_dec x root) as [->|Nr].
  - right. intros A. inversion A; subst; congruence.
  - destruct (T x X Nr) as (p & P & I & _ & L). destruct (IH _ L p eq_refl I) as [Y|Y]; [left; eapply anc_up; eauto|]. right. intros A. inversion A; subst; [congruence|]. assert (p0 = p) as -> by congruence. auto.
Qed.
Lemma tree_walk E root V par a x : dtree E root V par -> In x V -> anc par a x -> a <> x ->
  exists l, walk E a l x /\ Forall (fun z => anc par z x /\ (pos V a < pos V z < pos V x)%nat) l.
Proof.
  intros D X A. revert X. induction A as [|a x p P A IH]; intros X N; [congruence|].
  pose proof D as (_ & _ & T & R & _). destruct (Z.eq_dec x root) as [->|Nr]; [congruence|]. destruct (T x X Nr) as (q & Q & I & Eq & L). assert (q = p) as -> by congruence.
  destruct (Z.eq_dec a p) as [->|Np].
  - exists []. split; [now constructor|constructor].
  - destruct (IH I Np) as (l & W & F). exists (l ++ [p]). split; [apply walk_app; [auto|now constructor]|]. apply Forall_app. split.
    + eapply Forall_impl; [|exact F]. cbn. intros z [Z1 Z2]. split; [eapply anc_up; eauto|lia].
    + constructor; [|constructor]. split; [eapply anc_up; [eauto|constructor]|]. split; [eapply anc_lt; eauto|auto].
Qed.
Lemma walk_in E root V par u l v : dtree E root V par -> In u V -> walk E u l v -> Forall (fun z => In z V) l /\ In v V.
Proof.
  intros (_ & _ & _ & _ & C & _) U W. induction W as [u v H|u w l v H W IH]; [split; [constructor|eauto]|]. destruct (IH (C _ _ U H)) as [A B]. split; [constructor; eauto|auto].
Qed.

(** The path lemma: a way from [v] to a later [w] meets a common ancestor. *)
Lemma path_lemma E root V par v l w : dtree E root V par -> In v V -> walk E v l w -> (pos V v <= pos V w)%nat ->
  exists c, (c = v \/ In c l \/ c = w) /\ anc par c v /\ anc par c w.
Proof.
  intros D Vv W. pose proof D as (_ & _ & _ & _ & C & D4 & D5). induction W as [v w H|v x l w H W IH]; intros L.
  - assert (Ww : In w V) by eauto. destruct (Z.eq_dec v w) as [->|N]; [exists w; split; [auto|split; constructor]|]. exists v. split; [auto|]. split; [constructor|].
    apply D4; auto. destruct (Nat.eq_dec (pos V v) (pos V w)) as [E'|]; [apply (pos_inj V) in E'; auto; contradiction|lia].
  - assert (Xx : In x V) by eauto. assert (Ww : In w V) by (eapply walk_in; eauto).
    destruct (anc_dec E root V par v w D Ww) as [A|A]; [exists v; split; [auto|split; [constructor|auto]]|].
    assert (Nvw : v <> w) by (intros ->; apply A; constructor).
    destruct (Nat.le_gt_cases (pos V x) (pos V w)) as [Lx|Lx].
    + destruct (IH Xx Lx) as (c & Hc & Cx & Cw). exists c. split; [cbn [In]; intuition|]. split; [|auto]. assert (Cv : In c V) by (eapply anc_in; eauto).
      destruct (Nat.le_gt_cases (pos V c) (pos V v)) as [Lc|Lc].
      * apply (D5 c v w); auto.
      * exfalso. apply A. apply anc_trans with c; [|auto]. assert (Lvx : (pos V v < pos V x)%nat) by (pose proof (anc_le _ _ _ _ _ _ D Xx Cx); lia).
        eapply (anc_chain E root V par v c x); eauto. lia.
    + exfalso. apply A. assert (anc par v x) by (apply D4; auto; lia). apply (D5 v w x); auto. lia.
Qed.

(** ** Semidominators *)
Definition semi_path (E : rel) (V : list Z) (x w : Z) : Prop := exists l, walk E x l w /\ Forall (fun z => (pos V w < pos V z)%nat) l.
Definition is_sdom (E : rel) (V : list Z) (s w : Z) : Prop :=
  In s V /\ semi_path E V s w /\ (pos V s < pos V w)%nat /\ forall v, In v V -> semi_path E V v w -> (pos V s <= pos V v)%nat.
Lemma semi_anc E root V par v w : dtree E root V par -> In v V -> semi_path E V v w -> (pos V v < pos V w)%nat -> anc par v w.
Proof.
  intros D Vv (l & W & F) L. destruct (path_lemma _ _ _ _ _ _ _ D Vv W) as (c & Hc & A & B); [lia|]. assert (Ww : In w V) by (eapply walk_in; eauto).
  pose proof (anc_le _ _ _ _ _ _ D Vv A). destruct Hc as [->|[I| ->]]; [auto| |lia]. rewrite Forall_forall in F. apply F in I. lia.
Qed.
Lemma sdom_anc E root V par s w : dtree E root V par -> is_sdom E V s w -> anc par s w /\ s <> w.
Proof. intros D (A & B & C & _). split; [eapply semi_anc; eauto|intros ->; lia]. Qed.
Lemma sdom_unique E V s s' w : is_sdom E V s w -> is_sdom E V s' w -> s = s'.
Proof. intros (A & B & C & H) (A' & B' & C' & H'). apply (pos_inj V); auto. specialize (H s' A' B'). specialize (H' s A B). lia. Qed.

Lemma min_first (f : Z -> nat) l : l <> [] -> exists l1 u l2, l = l1 ++ u :: l2 /\ Forall (fun z => (f u < f z)%nat) l1 /\ Forall (fun z => (f u <= f z)%nat) l2.
Proof.
  induction l as [|x l IH]; intros N; [contradiction|]. destruct l as [|y l].
  - exists [], x, []. repeat split; constructor.
  - destruct IH as (l1 & u & l2 & E & A & B); [discriminate|]. destruct (Nat.le_gt_cases (f x) (f u)) as [L|L].
    + exists [], x, (y :: l). split; [auto|]. split; [constructor|]. rewrite E. apply Forall_app. split; [eapply Forall_impl; [|exact A]; cbn; lia|]. constructor; [auto|]. eapply Forall_impl; [|exact B]; cbn; lia.
    + exists (x :: l1), u, l2. rewrite E. split; [auto|]. split; [constructor; auto|auto].
Qed.
Definition cand (E : rel) (V : list Z) (par : Z -> option Z) (w x : Z) : Prop :=
  exists v, E v w /\ In v V /\ (((pos V v < pos V w)%nat /\ x = v) \/ ((pos V w < pos V v)%nat /\ exists u, anc par u v /\ (pos V w < pos V u)%nat /\ is_sdom E V x u)).
Lemma snoc_cases {A} (l : list A) : l = [] \/ exists l' x, l = l' ++ [x].
Proof. induction l as [|x l IH] using rev_ind; [auto|right; eauto]. Qed.
Lemma cand_semi E root V par w x : dtree E root V par -> In w V -> cand E V par w x -> In x V /\ semi_path E V x w.
Proof.
  intros D Ww (v & Ev & Vv & [[L ->]|[L (u & A & Lu & S)]]); [split; [auto|]; exists []; split; [now constructor|constructor]|].
  destruct S as (Sx & (l & W & F) & Lx & _). split; [auto|].
  assert (G : exists m, walk E u m w /\ Forall (fun z => (pos V u < pos V z)%nat) m).
  { destruct (Z.eq_dec u v) as [->|N]; [exists []; split; [now constructor|constructor]|]. destruct (tree_walk E root V par u v D Vv A N) as (m & Wm & Fm).
    exists (m ++ [v]). split; [apply walk_app; [auto|now constructor]|]. apply Forall_app. split; [eapply Forall_impl; [|exact Fm]; cbn; lia|]. constructor; [|constructor]. eapply anc_lt; eauto. }
  destruct G as (m & Wm & Fm). exists (l ++ u :: m). split; [now apply walk_app|]. apply Forall_app. split; [eapply Forall_impl; [|exact F]; cbn; lia|]. constructor; [auto|]. eapply Forall_impl; [|exact Fm]; cbn; lia.
Qed.
Lemma cand_below E root V par w y : dtree E root V par -> In w V -> (forall u, In u V -> (pos V w < pos V u)%nat -> exists s, is_sdom E V s u) ->
  In y V -> semi_path E V y w -> (pos V y < pos V w)%nat -> exists x, cand E V par w x /\ (pos V x <= pos V y)%nat.
Proof.
  intros D Ww Sd Yv (l & W & F) L. destruct l as [|z0 l0] eqn:El.
  - inversion W; subst. exists y. split; [|lia]. exists y. auto.
  - rewrite <- El in *. destruct (walk_in _ _ _ _ _ _ _ D Yv W) as [Fin _].
    destruct (snoc_cases l) as [->|(l' & v & El')]; [discriminate|].
    assert (Wv : E v w). { rewrite El' in W. apply walk_split in W as [_ W]. inversion W; auto. }
    assert (Vv : In v V /\ (pos V w < pos V v)%nat). { rewrite Forall_forall in Fin, F. split; [apply Fin|apply F]; rewrite El'; apply in_app_iff; right; left; auto. }
    destruct Vv as [Vv Lv]. destruct (min_first (pos V) l) as (l1 & u & l2 & Eu & A & B); [rewrite El; discriminate|].
    assert (Uv : In u V /\ (pos V w < pos V u)%nat). { rewrite Forall_forall in Fin, F. split; [apply Fin|apply F]; rewrite Eu; apply in_app_iff; right; left; auto. }
    destruct Uv as [Uv Lu].
    assert (Au : anc par u v).
    { (* the way from u to v inside l *)
      destruct (snoc_cases l2) as [->|(l3 & v' & ->)].
      - rewrite Eu in El'. apply app_inj_tail in El' as [_ ->]. constructor.
      - assert (v' = v) as ->. { rewrite Eu in El'. rewrite app_comm_cons, app_assoc in El'. apply app_inj_tail in El' as [_ ->]. auto. }
        rewrite Eu in W. apply walk_split in W as [_ W]. apply walk_split in W as [W _].
        rewrite Forall_forall in B.
        destruct (path_lemma _ _ _ _ _ _ _ D Uv W) as (c & Hc & Cu & Cv); [apply B, in_app_iff; right; left; auto|].
        assert (c = u) as ->; [|auto]. apply (pos_inj V); [eapply anc_in; eauto|auto|]. pose proof (anc_le _ _ _ _ _ _ D Uv Cu).
        destruct Hc as [->|[I| ->]]; [auto| |]; (assert (pos V u <= pos V c)%nat || assert (pos V u <= pos V v)%nat); try (apply B, in_app_iff; cbn [In]; auto); lia. }
    assert (Pu : semi_path E V y u). { rewrite Eu in W. apply walk_split in W as [W _]. exists l1. auto. }
    destruct (Sd u Uv Lu) as (s & S). exists s. split; [|apply S; auto]. exists v. split; [auto|]. split; [auto|]. right. split; [auto|]. exists u. auto.
Qed.
Lemma sdom_min E root V par w x : dtree E root V par -> In w V -> w <> root -> (forall u, In u V -> (pos V w < pos V u)%nat -> exists s, is_sdom E V s u) ->
  cand E V par w x -> (forall y, cand E V par w y -> (pos V x <= pos V y)%nat) -> is_sdom E V x w.
Proof.
  intros D Ww Nr Sd C M. destruct (cand_semi _ _ _ _ _ _ D Ww C) as [Xv Px]. pose proof D as (_ & _ & T & _).
  assert (Lx : (pos V x < pos V w)%nat).
  { destruct (T w Ww Nr) as (p & P & I & Ep & Lp). assert (Cp : cand E V par w p) by (exists p; auto). apply M in Cp. lia. }
  split; [auto|]. split; [auto|]. split; [auto|]. intros v Vv Pv. destruct (Nat.le_gt_cases (pos V w) (pos V v)); [lia|].
  destruct (cand_below E root V par w v D Ww Sd Vv Pv) as (y & Cy & Ly); [auto|]. apply M in Cy. lia.
Qed.

(** ** Dominators *)
Definition all_sdom E root V (sd : Z -> Z) : Prop := forall w, In w V -> w <> root -> is_sdom E V (sd w) w.
(** No semidominator of a node between [a] and [w] lies above [a]. *)
Definition blocks V par (sd : Z -> Z) a w : Prop := anc par a w /\ a <> w /\ forall u, anc par a u -> a <> u -> anc par u w -> (pos V a <= pos V (sd u))%nat.

Lemma first_such {A} (P : A -> Prop) l : (forall x, In x l -> P x \/ ~ P x) -> (exists x, In x l /\ P x) -> exists l1 y l2, l = l1 ++ y :: l2 /\ P y /\ Forall (fun z => ~ P z) l1.
Proof.
  induction l as [|x l IH]; intros Dc (z & I & Pz); [destruct I|]. destruct (Dc x (or_introl eq_refl)) as [Px|Px].
  - exists [], x, l. split; [auto|]. split; [auto|constructor].
  - destruct I as [->|I]; [contradiction|]. destruct IH as (l1 & y & l2 & -> & Py & F); [intros; apply Dc; right; auto|eauto|]. exists (x :: l1), y, l2. split; [auto|]. split; [auto|constructor; auto].
Qed.
Lemma blocks_walk E root V par sd a w : dtree E root V par -> all_sdom E root V sd -> In w V -> blocks V par sd a w ->
  forall n l x, (length l <= n)%nat -> In x V -> walk E x l w -> (pos V x < pos V a)%nat -> In a l.
Proof.
  intros D S Ww (A & N & H). assert (Av : In a V) by (eapply anc_in; eauto). induction n as [n IH] using lt_wf_ind. intros l x Ln Xv W L.
  destruct (walk_in _ _ _ _ _ _ _ D Xv W) as [Fin _].
  destruct (Exists_dec (fun z => (pos V z < pos V a)%nat) l) as [Ex|Ex]; [intros z; apply lt_dec|..].
  - apply Exists_exists in Ex as (z & I & Lz). apply in_split in I as (l1 & l2 & ->). apply walk_split in W as [_ W]. rewrite app_length in Ln. cbn in Ln.
    apply in_app_iff. right. right. rewrite Forall_app in Fin. destruct Fin as [_ Fin]. inversion Fin; subst. apply (IH (length l2) ltac:(lia) l2 z); auto.
  - assert (Ge : forall z, In z l -> (pos V a <= pos V z)%nat). { intros z I. destruct (Nat.le_gt_cases (pos V a) (pos V z)); [auto|]. exfalso. apply Ex, Exists_exists. eauto. }
    assert (FinW : forall z, In z (l ++ [w]) -> In z V). { intros z I. apply in_app_iff in I as [I|[<-|[]]]; [|auto]. rewrite Forall_forall in Fin. auto. }
    destruct (first_such (fun y => anc par a y /\ anc par y w) (l ++ [w])) as (l1 & y & l2 & Ey & [Ay Yw] & F1).
    { intros z I. destruct (anc_dec E root V par a z D (FinW z I)) as [Q|Q]; [|right; tauto]. destruct (anc_dec E root V par z w D Ww) as [R|R]; [left; auto|right; tauto]. }
    { exists w. split; [apply in_app_iff; right; left; auto|]. split; [auto|constructor]. }
    assert (Yv : In y V) by (apply FinW; rewrite Ey; apply in_app_iff; right; left; auto).
    assert (Wy : walk E x l1 y).
    { destruct (snoc_cases l2) as [->|(l3 & w' & ->)].
      - apply app_inj_tail in Ey as [-> ->]. auto.
      - rewrite app_comm_cons, app_assoc in Ey. apply app_inj_tail in Ey as [-> _]. now apply walk_split in W as [W _]. }
    assert (Sub : forall z, In z l1 -> In z l).
    { intros z I. destruct (snoc_cases l2) as [->|(l3 & w' & ->)].
      - apply app_inj_tail in Ey as [-> ->]. auto.
      - rewrite app_comm_cons, app_assoc in Ey. apply app_inj_tail in Ey as [-> _]. apply in_app_iff; auto. }
    assert (Sp : semi_path E V x y).
    { exists l1. split; [auto|]. apply Forall_forall. intros z I. destruct (Nat.le_gt_cases (pos V z) (pos V y)) as [Lz|]; [|auto]. exfalso.
      assert (Zv : In z V) by (apply FinW, in_app_iff; left; auto).
      rewrite Forall_forall in F1. pose proof I as I2. apply in_split in I2 as (m1 & m2 & ->). apply walk_split in Wy as [_ Wy].
      destruct (path_lemma _ _ _ _ _ _ _ D Zv Wy Lz) as (c & Hc & Cz & Cy).
      assert (Cin : In c (m1 ++ z :: m2)).
      { destruct Hc as [->|[Hc| ->]]; [auto|apply in_app_iff; right; right; auto|].
        assert (y = z) as ->; [|auto]. apply (pos_inj V); auto. pose proof (anc_le _ _ _ _ _ _ D Zv Cz). lia. }
      apply (F1 c Cin). split; [|eapply anc_trans; eauto]. eapply (anc_chain E root V par a c y); eauto. }
    destruct (Z.eq_dec y a) as [->|Na].
    + assert (I : In a (l ++ [w])) by (rewrite Ey; apply in_app_iff; right; left; auto). apply in_app_iff in I as [I|[<-|[]]]; [auto|congruence].
    + exfalso. assert (Yr : y <> root) by (intros ->; pose proof (anc_le _ _ _ _ _ _ D Yv Ay); rewrite (root_pos _ _ _ _ D) in *; lia).
      specialize (H y Ay (not_eq_sym Na) Yw). destruct (S y Yv Yr) as (_ & _ & _ & M). specialize (M x Xv Sp). lia.
Qed.
Lemma way_cases R u l v : way R u l v -> (l = [u] /\ v = u) \/ exists m, walk R u m v /\ l = u :: m ++ [v].
Proof.
  induction 1 as [u|u w l v E W [[-> ->]|(m & A & ->)]]; [auto|right; exists []; split; [now constructor|auto]|]. right. exists (w :: m). split; [now constructor|auto].
Qed.
Lemma walk_way R u m v : walk R u m v -> way R u (u :: m ++ [v]) v.
Proof. induction 1; cbn; [eapply way_step; [eauto|constructor]|eapply way_step; eauto]. Qed.
Lemma dominates_root R root d : dominates R root d root -> d = root.
Proof. intros H. destruct (H [root]) as [->|[]]; [constructor|auto]. Qed.
Lemma root_dominates R root v : dominates R root root v.
Proof. intros l W. destruct (way_cases _ _ _ _ W) as [[-> _]|(m & _ & ->)]; left; auto. Qed.
Lemma self_dominates R root v : dominates R root v v.
Proof. intros l W. destruct (way_cases _ _ _ _ W) as [[-> ->]|(m & _ & ->)]; [left; auto|right; apply in_app_iff; right; left; auto]. Qed.
Lemma blocks_dominates E root V par sd a w : dtree E root V par -> all_sdom E root V sd -> In w V -> blocks V par sd a w -> dominates E root a w.
Proof.
  intros D S Ww B l W. destruct (Z.eq_dec a root) as [->|N]; [now apply (root_dominates E root w)|].
  assert (Av : In a V) by (destruct B as (A & _); eapply anc_in; eauto).
  destruct (way_cases _ _ _ _ W) as [[-> ->]|(m & Wm & ->)].
  - exfalso. destruct B as (A & _). apply N. eapply pos_root; eauto. pose proof (anc_le _ _ _ _ _ _ D Ww A). rewrite (root_pos _ _ _ _ D) in *. lia.
  - right. apply in_app_iff. left. eapply (blocks_walk E root V par sd a w D S Ww B (length m)); [auto|eapply root_in; eauto|exact Wm|].
    rewrite (root_pos _ _ _ _ D). destruct (pos V a) eqn:P; [|lia]. exfalso. apply N. eapply pos_root; eauto.
Qed.
Lemma sd_blocks_root E root V par sd w : dtree E root V par -> all_sdom E root V sd -> In w V -> w <> root -> blocks V par sd root w.
Proof. intros D S Ww N. split; [eapply anc_root; eauto|]. split; [auto|]. intros u _ _ _. rewrite (root_pos _ _ _ _ D). lia. Qed.
Lemma tree_way E root V par x : dtree E root V par -> In x V -> exists l, way E root l x /\ forall z, In z l -> anc par z x.
Proof.
  intros D X. destruct (Z.eq_dec root x) as [->|N]; [exists [x]; split; [constructor|intros z [->|[]]; constructor]|].
  destruct (tree_walk E root V par root x D X (anc_root _ _ _ _ _ D X) N) as (l & W & F). exists (root :: l ++ [x]). split; [now apply walk_way|].
  intros z [<-|I]; [eapply anc_root; eauto|]. apply in_app_iff in I as [I|[<-|[]]]; [|constructor]. rewrite Forall_forall in F. apply F; auto.
Qed.
Lemma way_app R u l v m w : way R u l v -> walk R v m w -> way R u (l ++ m ++ [w]) w.
Proof. intros A B. induction A as [u|u x l v E A IH]; [cbn; now apply walk_way|]. cbn. eapply way_step; eauto. Qed.
Lemma dominates_blocks E root V par sd d w : dtree E root V par -> all_sdom E root V sd -> In w V -> strictly_dominates E root d w -> blocks V par sd d w.
Proof.
  intros D S Ww [N Dm]. destruct (tree_way E root V par w D Ww) as (l & W & F). pose proof (F d (Dm l W)) as A.
  split; [auto|]. split; [auto|]. intros u Du Nu Uw. destruct (Nat.le_gt_cases (pos V d) (pos V (sd u))) as [|L]; [auto|]. exfalso.
  assert (Uv : In u V) by (eapply anc_in; eauto). assert (Ld : (pos V d < pos V u)%nat) by (eapply anc_lt; eauto).
  assert (Nr : u <> root) by (intros ->; rewrite (root_pos _ _ _ _ D) in Ld; lia).
  destruct (S u Uv Nr) as (Sv & (m & Wm & Fm) & Ls & _). destruct (tree_way E root V par (sd u) D Sv) as (l1 & W1 & F1).
  pose proof (way_app _ _ _ _ _ _ W1 Wm) as W2.
  assert (G : exists l3, way E root l3 w /\ ~ In d l3).
  { assert (N2 : ~ In d (l1 ++ m ++ [u])).
    { intros I. apply in_app_iff in I as [I|I]; [apply F1 in I; pose proof (anc_le _ _ _ _ _ _ D Sv I); lia|]. apply in_app_iff in I as [I|[I|[]]]; [rewrite Forall_forall in Fm; apply Fm in I; lia|congruence]. }
    destruct (Z.eq_dec u w) as [->|Nuw]; [eauto|]. destruct (tree_walk E root V par u w D Ww Uw Nuw) as (q & Wq & Fq).
    eexists. split; [eapply way_app; eauto|]. intros I. apply in_app_iff in I as [I|I]; [auto|]. apply in_app_iff in I as [I|[I|[]]]; [rewrite Forall_forall in Fq; apply Fq in I; lia|congruence]. }
  destruct G as (l3 & W3 & N3). apply N3, Dm, W3.
Qed.
Lemma sdom_above E root V par sd a w : dtree E root V par -> all_sdom E root V sd -> In w V -> w <> root -> blocks V par sd a w -> (pos V a <= pos V (sd w))%nat.
Proof. intros D S Ww N (A & Na & H). apply H; auto. constructor. Qed.
(** A deepest blocking ancestor is the immediate dominator. *)
Lemma deepest E root V par sd a w : dtree E root V par -> all_sdom E root V sd -> In w V -> blocks V par sd a w -> (forall b, blocks V par sd b w -> (pos V b <= pos V a)%nat) -> immediate E root a w.
Proof.
  intros D S Ww B M. pose proof B as (A & N & H). split; [split; [auto|eapply blocks_dominates; eauto]|]. intros d Sd.
  pose proof (dominates_blocks _ _ _ _ _ _ _ D S Ww Sd) as Bd. pose proof Bd as (Ad & Nd & Hd). assert (Av : In a V) by (eapply anc_in; eauto).
  destruct (Z.eq_dec d a) as [->|Nda]; [apply self_dominates|]. eapply blocks_dominates; eauto.
  split; [eapply (anc_chain E root V par d a w); eauto|]. split; [auto|]. intros u U1 U2 U3. apply Hd; auto. eapply anc_trans; eauto.
Qed.
(** If nothing between passes it, the semidominator is the immediate dominator. *)
Lemma idom_semi E root V par sd w : dtree E root V par -> all_sdom E root V sd -> In w V -> w <> root ->
  (forall u, anc par (sd w) u -> sd w <> u -> anc par u w -> (pos V (sd w) <= pos V (sd u))%nat) -> immediate E root (sd w) w.
Proof.
  intros D S Ww N H. eapply deepest; eauto.
  - destruct (sdom_anc E root V par _ _ D (S w Ww N)) as [A B]. split; [auto|]. split; auto.
  - intros b B. eapply sdom_above; eauto.
Qed.
(** Otherwise the immediate dominator is that of the node with the least semidominator. *)
Lemma idom_same E root V par sd u w d : dtree E root V par -> all_sdom E root V sd -> In w V -> w <> root ->
  anc par (sd w) u -> sd w <> u -> anc par u w -> (pos V (sd u) < pos V (sd w))%nat ->
  (forall x, anc par (sd w) x -> sd w <> x -> anc par x w -> (pos V (sd u) <= pos V (sd x))%nat) ->
  immediate E root d u -> immediate E root d w.
Proof.
  intros D S Ww N U1 U2 U3 L M [Id1 Id2]. assert (Uv : In u V) by (eapply anc_in; eauto).
  assert (Lw : (pos V (sd w) < pos V u)%nat) by (eapply anc_lt; eauto).
  assert (Nu : u <> root) by (intros ->; rewrite (root_pos _ _ _ _ D) in Lw; lia).
  pose proof (dominates_blocks _ _ _ _ _ _ _ D S Uv Id1) as Bd.
  assert (Up : forall b, blocks V par sd b u -> blocks V par sd b w).
  { intros b (A & Nb & H). assert (Lb : (pos V b <= pos V (sd u))%nat) by (apply H; auto; constructor).
    split; [eapply anc_trans; eauto|]. split; [intros ->; pose proof (anc_le _ _ _ _ _ _ D Ww U3); lia|]. intros x X1 X2 X3.
    assert (Xv : In x V) by exact (anc_in _ _ _ _ _ _ D Ww X3).
    destruct (Nat.le_gt_cases (pos V x) (pos V u)) as [Lx|Lx].
    - apply H; auto. eapply (anc_chain E root V par x u w); eauto.
    - assert (pos V (sd u) <= pos V (sd x))%nat; [|lia]. apply M; auto; [|intros <-; lia]. eapply anc_trans; [exact U1|]. eapply (anc_chain E root V par u x w); eauto. lia. }
  assert (Down : forall b, blocks V par sd b w -> blocks V par sd b u).
  { intros b (A & Nb & H). assert (Lb : (pos V b <= pos V (sd w))%nat) by (apply H; auto; constructor).
    split; [eapply (anc_chain E root V par b u w); eauto; lia|]. split; [intros ->; lia|]. intros x X1 X2 X3. apply H; auto. eapply anc_trans; eauto. }
  eapply deepest; eauto. intros b B. apply Down in B. pose proof B as (A & Nb & H). assert (Bu : strictly_dominates E root b u) by (split; [auto|eapply blocks_dominates; eauto]).
  apply Id2 in Bu. destruct Bd as (Ad & Nd & _). assert (Dv : In d V) by (eapply anc_in; eauto). destruct (tree_way E root V par d D Dv) as (l & W & F). eapply anc_le; eauto.
Qed.
