(** Dominance frontiers. *)
From Verif Require Import ListLemmas.
From Verif Require Export DomProofs3 SsaModel.
From Coq Require Import ZifyBool ZifyNat.

Lemma oeqb_iff a b : oeqb a b = true <-> a = b.
Proof. destruct a as [x|], b as [y|]; cbn; split; try congruence; try discriminate; intros H; [f_equal; lia|injection H; lia]. Qed.

Lemma way_in_head R u l v : way R u l v -> In u l.
Proof. intros []; left; auto. Qed.
Lemma way_in_last R u l v : way R u l v -> In v l.
Proof. intros P. induction P; [left; auto|right; auto]. Qed.
Lemma way_snoc R u l v w : way R u l v -> R v w -> way R u (l ++ [w]) w.
Proof. intros P E. induction P as [u|u x l v E' P IH]; cbn [app]; [econstructor; [eauto|constructor]|econstructor; eauto]. Qed.
Lemma dominates_trans R root a b c : dominates R root a b -> dominates R root b c -> dominates R root a c.
Proof.
  intros A B l P. destruct (way_cut _ _ _ _ b P (B l P)) as (l' & P' & _). (* the prefix of the way to [b] *)
  assert (Pre : forall u l v x, way R u l v -> In x l -> exists l', way R u l' x /\ incl l' l).
  { clear. intros u l v x P. induction P as [u|u w l v E P IH]; intros I.
    - destruct I as [->|[]]. exists [x]. split; [constructor|apply incl_refl].
    - destruct I as [->|I]; [exists [x]; split; [constructor|intros y [->|[]]; left; auto]|]. destruct (IH I) as (l' & P' & L). exists (u :: l'). split; [econstructor; eauto|]. intros y [->|Y]; [left; auto|right; auto]. }
  destruct (Pre _ _ _ b P (B l P)) as (m & Pm & Im). apply Im. auto.
Qed.
Lemma strict_not_back R root a b : reachable R root b -> strictly_dominates R root a b -> ~ dominates R root b a.
Proof. intros Rb [N A] B. apply (no_mutual R root b a); auto. Qed.
(** A strict dominator dominates the predecessors. *)
Lemma dominates_pred (R : rel) root d p n : R p n -> strictly_dominates R root d n -> dominates R root d p.
Proof. intros E [N A] l P. specialize (A _ (way_snoc _ _ _ _ _ P E)). apply in_app_iff in A as [A|[<-|[]]]; [auto|congruence]. Qed.
(** The dominators of a node are itself and those of its immediate dominator. *)
Lemma dominates_up R root d v i : immediate R root i v -> (dominates R root d v <-> d = v \/ dominates R root d i).
Proof.
  intros [[N A] M]. split.
  - intros D. destruct (Z.eq_dec d v) as [|n]; [auto|]. right. apply M. split; auto.
  - intros [->|D]; [apply self_dominates|]. eapply dominates_trans; eauto.
Qed.

Definition idoms (R : rel) (root : Z) (idom : Z -> option Z) : Prop :=
  (forall v d, idom v = Some d <-> reachable R root v /\ immediate R root d v) /\ (forall v, reachable R root v -> v <> root -> exists d, idom v = Some d).
Lemma idom_root R root idom : idoms R root idom -> idom root = None.
Proof. intros (I & _). destruct (idom root) as [d|] eqn:E; [|auto]. apply I in E as [_ [[E1 E2] _]]. exfalso. apply E1. now apply dominates_root in E2. Qed.

(** What one walk up adds. *)
Definition above R root (tgt : option Z) (x : Z) : Prop := exists i, tgt = Some i /\ dominates R root x i.
Lemma run_up_ok R root h n (nodes : list Z) : idoms R root (h_idom h) -> (forall x, reachable R root x -> In x nodes) ->
  forall fuel r df seen, reachable R root r -> (forall i, h_idom h n = Some i -> dominates R root i r) ->
  NoDup seen -> incl seen nodes -> (forall x, In x seen -> strictly_dominates R root r x /\ reachable R root x) -> (length nodes < fuel + S (length seen))%nat ->
  exists df', run_up fuel h n (Some r) df = Ok df' /\
    (forall x y, In y (df' x) <-> In y (df x) \/ (y = n /\ reachable R root x /\ dominates R root x r /\ ~ above R root (h_idom h n) x)) /\ ((forall x, NoDup (df x)) -> forall x, NoDup (df' x)).
Proof.
  intros Id Nod. pose proof (idom_root _ _ _ Id) as Rt. pose proof Id as (I1 & I2).
  induction fuel as [|fuel IH]; intros r df seen Rr Ti Ns Is Sn Lf.
  { exfalso. assert (L : (length (r :: seen) <= length nodes)%nat).
    { apply NoDup_incl_length; [constructor; [|auto]|intros x [<-|X]; auto]. intros X. destruct (Sn r X) as [[Q _] _]. congruence. } cbn [length] in L. lia. }
  assert (Step : run_up (S fuel) h n (Some r) df = if oeqb (Some r) (h_idom h n) then Ok df else run_up fuel h n (h_idom h r) (if zmem n (df r) then df else upd df r (df r ++ [n]))) by reflexivity.
  rewrite Step. clear Step. destruct (oeqb (Some r) (h_idom h n)) eqn:Eq.
  - apply oeqb_iff in Eq. exists df. split; [auto|]. split; [|auto]. intros x y. split; [auto|]. intros [|(_ & _ & Q1 & Q2)]; [auto|]. exfalso. apply Q2. exists r. auto.
  - assert (Neq : h_idom h n <> Some r) by (intros Q; rewrite Q in Eq; cbn in Eq; rewrite Z.eqb_refl in Eq; discriminate).
    set (df1 := if zmem n (df r) then df else upd df r (df r ++ [n])).
    assert (D1 : forall x y, In y (df1 x) <-> In y (df x) \/ (y = n /\ x = r)).
    { intros x y. unfold df1. destruct (zmem n (df r)) eqn:Zm.
      - apply zmem_in in Zm. split; [auto|]. intros [|[-> ->]]; auto.
      - unfold upd. destruct (Z.eqb_spec x r) as [->|nx]; [rewrite in_app_iff; cbn [In]|]; split; intros Q; [destruct Q as [|[<-|[]]]; auto|destruct Q as [|[-> _]]; auto|auto|destruct Q as [|[_ ->]]; [auto|congruence]]. }
    assert (N1 : (forall x, NoDup (df x)) -> forall x, NoDup (df1 x)).
    { intros Q x. unfold df1. destruct (zmem n (df r)) eqn:Zm; [auto|]. unfold upd. destruct (x =? r); [|auto]. apply nodup_snoc; [auto|]. now apply zmem_notin. }
    assert (NotAbove : forall x, above R root (h_idom h n) x -> x <> r).
    { intros x (i & Ei & Di) ->. destruct (Z.eq_dec i r) as [->|ni]; [congruence|]. apply (no_mutual R root r i); auto. }
    destruct (Z.eq_dec r root) as [->|Nr].
    + rewrite Rt. assert (Hn : h_idom h n = None). { destruct (h_idom h n) as [i|] eqn:Ei; [|auto]. exfalso. specialize (Ti i eq_refl). apply dominates_root in Ti. congruence. }
      exists df1. split. { destruct fuel; cbn [run_up]; rewrite Hn; reflexivity. }
      split; [|auto]. intros x y. rewrite D1. split; (intros [|Q]; [auto|right]).
      * destruct Q as [-> ->]. split; [auto|]. split; [left; auto|]. split; [apply self_dominates|]. intros Ab. apply (NotAbove root Ab). auto.
      * destruct Q as (-> & _ & Q & _). split; [auto|]. now apply dominates_root in Q.
    + destruct (I2 r Rr Nr) as (d & Ed). rewrite Ed. pose proof (proj1 (I1 r d) Ed) as [_ Im].
      assert (Rd : reachable R root d) by (eapply dominator_reachable; [exact Rr|exact (proj2 (proj1 Im))]).
      destruct (IH d df1 (r :: seen)) as (df' & E' & D' & N').
      * auto.
      * intros i Ei. pose proof (proj1 (dominates_up R root i r d Im) (Ti i Ei)) as [->|Q]; [congruence|auto].
      * constructor; [|auto]. intros Q. destruct (Sn r Q) as [[K _] _]. congruence.
      * intros x [<-|X]; auto.
      * intros x [<-|X]; [split; [apply Im|auto]|]. destruct (Sn x X) as [[K1 K2] K3]. split; [|auto]. split; [|eapply dominates_trans; [exact (proj2 (proj1 Im))|auto]].
        intros ->. apply (no_mutual R root x r); [congruence|exact (proj2 (proj1 Im))|auto|auto].
      * cbn [length]. lia.
      * exists df'. split; [auto|]. split; [|auto]. intros x y. rewrite D', D1. split.
        -- intros [[|[-> ->]]|(-> & Q1 & Q2 & Q3)]; [auto| |].
           ++ right. split; [auto|]. split; [auto|]. split; [apply self_dominates|]. intros Ab. apply (NotAbove r Ab). auto.
           ++ right. split; [auto|]. split; [auto|]. split; [|auto]. apply (dominates_up R root x r d Im). auto.
        -- intros [|(-> & Q1 & Q2 & Q3)]; [auto|]. apply (dominates_up R root x r d Im) in Q2 as [->|Q2]; [auto|]. right. auto.
Qed.

Lemma frontier_ok g root h : wf g -> node g root -> no_stray (edge g) root -> idoms (edge g) root (h_idom h) ->
  (forall v, reachable (edge g) root v -> h_pred h v = inc g v) -> (forall v, ~ reachable (edge g) root v -> h_pred h v = []) ->
  exists df, build_dominance_frontier g h = Ok df /\ (forall x, NoDup (df x)) /\ (forall x y, In y (df x) -> reachable (edge g) root y) /\
    forall x y, reachable (edge g) root x -> (In y (df x) <-> reachable (edge g) root y /\ exists p, edge g p y /\ reachable (edge g) root p /\ dominates (edge g) root x p /\ ~ strictly_dominates (edge g) root x y).
Proof.
  intros W Nr St Id Pr Pu. pose proof Id as (I1 & I2). pose proof (idom_root _ _ _ Id) as Rt. set (R := edge g) in *.
  assert (Nod : forall x, reachable R root x -> In x (g_nodes g)).
  { intros x [->|P]; [auto|]. destruct P as (l & P). destruct (walk_last _ _ _ _ P) as (p & Ep & _). apply (edge_nodes g p x W Ep). }
  assert (Dec : forall x, In x (g_nodes g) -> reachable R root x \/ ~ reachable R root x).
  { intros x _. destruct (dfs_explored g root W Nr) as (h0 & V & _ & (_ & D & _) & _). destruct (in_dec Z.eq_dec x V) as [Y|Y]; [left|right]; unfold R; rewrite <- (reach_in _ _ _ _ x D); auto. }
  assert (Ab : forall x n, reachable R root n -> (above R root (h_idom h n) x <-> strictly_dominates R root x n)).
  { intros x n Rn. split.
    - intros (i & Ei & Di). apply I1 in Ei as [_ Im]. split; [|eapply dominates_trans; [eauto|exact (proj2 (proj1 Im))]]. intros ->. eapply strict_not_back; [exact Rn|apply Im|auto].
    - intros Sx. assert (Nn : n <> root) by (intros ->; destruct Sx as [S1 S2]; apply dominates_root in S2; congruence). destruct (I2 n Rn Nn) as (i & Ei). exists i. split; [auto|]. apply I1 in Ei as [_ Im]. now apply Im. }
  (* one node *)
  assert (One : forall n, reachable R root n -> forall ps df, Forall (fun p => R p n) ps -> exists df', foldM (fun df p => run_up (length (g_nodes g)) h n (Some p) df) ps df = Ok df' /\
    ((forall x, NoDup (df x)) -> forall x, NoDup (df' x)) /\ (forall x y, In y (df' x) -> In y (df x) \/ y = n) /\
    forall x y, reachable R root x -> (In y (df' x) <-> In y (df x) \/ (y = n /\ exists p, In p ps /\ reachable R root p /\ dominates R root x p /\ ~ strictly_dominates R root x n))).
  { intros n Rn. induction ps as [|p ps IH]; intros df F.
    { exists df. split; [auto|]. split; [auto|]. split; [auto|]. intros x y Rx. split; [auto|]. intros [|(_ & p & [] & _)]; auto. }
    inversion F as [|? ? Ep F']; subst. cbn [foldM].
    assert (Dp : reachable R root p \/ (~ reachable R root p /\ n = root)).
    { destruct (Dec p) as [Y|Y]; [apply (edge_nodes g p n W Ep)|auto|]. right. split; [auto|]. destruct (Z.eq_dec n root) as [|Nn]; [auto|]. exfalso. apply Y. eapply St; eauto. }
    destruct Dp as [Rp|[Np ->]].
    - destruct (run_up_ok R root h n (g_nodes g) Id Nod (length (g_nodes g)) p df [] Rp) as (df1 & E1 & D1 & N1).
      { intros i Ei. apply I1 in Ei as [_ Im]. eapply dominates_pred; [exact Ep|apply Im]. } { constructor. } { intros x []. } { intros x []. } { cbn [length]. lia. }
      rewrite E1. cbn [bind]. destruct (IH df1 F') as (df' & E' & N' & T' & D'). exists df'. split; [auto|]. split; [auto|]. split; [intros x y I; apply T' in I as [I|I]; [apply D1 in I as [I|[I _]]; auto|auto]|]. intros x y Rx. rewrite D', D1 by auto. split.
      + intros [[|(-> & _ & Q1 & Q2)]|(-> & q & Q1 & Q2)]; [auto| |].
        * right. split; [auto|]. exists p. split; [left; auto|]. split; [auto|]. split; [auto|]. now rewrite <- Ab.
        * right. split; [auto|]. exists q. split; [right; auto|auto].
      + intros [|(-> & q & [<-|Q1] & Q2 & Q3 & Q4)]; [auto| |].
        * left. right. split; [auto|]. split; [auto|]. split; [auto|]. now rewrite Ab.
        * right. split; [auto|]. exists q. auto.
    - assert (Hp : h_idom h p = None). { destruct (h_idom h p) as [d|] eqn:Ed; [|auto]. apply I1 in Ed as [Q _]. contradiction. }
      assert (E1 : run_up (length (g_nodes g)) h root (Some p) df = Ok (if zmem root (df p) then df else upd df p (df p ++ [root]))).
      { assert (L : (0 < length (g_nodes g))%nat) by (destruct (g_nodes g) eqn:Eg; [red in Nr; rewrite Eg in Nr; destruct Nr|cbn; lia]).
        destruct (length (g_nodes g)) as [|m]; [lia|]. cbn [run_up]. rewrite Rt, Hp. cbn [oeqb]. destruct m; cbn [run_up]; rewrite Rt; reflexivity. }
      rewrite E1. cbn [bind]. destruct (IH (if zmem root (df p) then df else upd df p (df p ++ [root])) F') as (df' & E' & N' & T' & D'). exists df'. split; [auto|]. split; [|split].
      + intros Q. apply N'. intros x. destruct (zmem root (df p)) eqn:Zm; [auto|]. unfold upd. destruct (x =? p); [|auto]. apply nodup_snoc; [auto|]. now apply zmem_notin.
      + intros x y I. apply T' in I as [I|I]; [|auto]. destruct (zmem root (df p)); [auto|]. unfold upd in I. destruct (x =? p) eqn:Xp; [apply Z.eqb_eq in Xp as ->; apply in_app_iff in I as [I|[I|[]]]; auto|auto].
      + intros x y Rx. rewrite D' by auto. assert (Nx : (if zmem root (df p) then df else upd df p (df p ++ [root])) x = df x).
        { destruct (zmem root (df p)); [auto|]. unfold upd. destruct (Z.eqb_spec x p) as [->|]; [contradiction|auto]. } rewrite Nx. split; (intros [|(-> & q & Q1 & Q2)]; [auto|right; split; [auto|]; exists q]).
        * split; [right; auto|auto].
        * destruct Q1 as [<-|Q1]; [destruct Q2; contradiction|auto]. }
  unfold build_dominance_frontier.
  assert (All : forall l df, incl l (g_nodes g) -> exists df', foldM (fun df n => foldM (fun df p => run_up (length (g_nodes g)) h n (Some p) df) (h_pred h n) df) l df = Ok df' /\
    ((forall x, NoDup (df x)) -> forall x, NoDup (df' x)) /\ (forall x y, In y (df' x) -> In y (df x) \/ reachable R root y) /\
    forall x y, reachable R root x -> (In y (df' x) <-> In y (df x) \/ (In y l /\ reachable R root y /\ exists p, R p y /\ reachable R root p /\ dominates R root x p /\ ~ strictly_dominates R root x y))).
  { induction l as [|n l IH]; intros df Il.
    { exists df. split; [auto|]. split; [auto|]. split; [auto|]. intros x y Rx. split; [auto|]. intros [|([] & _)]; auto. }
    cbn [foldM]. assert (Il' : incl l (g_nodes g)) by (intros x X; apply Il; right; auto). destruct (Dec n) as [Rn|Rn]; [apply Il; left; auto| |].
    - rewrite Pr by auto. destruct (One n Rn (inc g n) df) as (df1 & E1 & N1 & T1 & D1). { apply Forall_forall. intros p Ip. now apply edge_inc. }
      rewrite E1. cbn [bind]. destruct (IH df1 Il') as (df' & E' & N' & T' & D'). exists df'. split; [auto|]. split; [auto|]. split; [intros x y I; apply T' in I as [I|I]; [apply T1 in I as [I| ->]; auto|auto]|]. intros x y Rx. rewrite D', D1 by auto. split.
      + intros [[|(-> & p & P1 & P2)]|(Q1 & Q2)]; [auto| |right; split; [right; auto|auto]]. right. split; [left; auto|]. split; [auto|]. exists p. split; [now apply edge_inc|auto].
      + intros [|([<-|Q1] & Q2 & Q3)]; [auto| |right; auto]. left. right. split; [auto|]. destruct Q3 as (p & P1 & P2). exists p. split; [now apply edge_inc|auto].
    - rewrite Pu by auto. cbn [foldM bind]. destruct (IH df Il') as (df' & E' & N' & T' & D'). exists df'. split; [auto|]. split; [auto|]. split; [auto|]. intros x y Rx. rewrite D' by auto. split.
      + intros [|(Q1 & Q2)]; [auto|right; split; [right; auto|auto]].
      + intros [|([<-|Q1] & Q2 & Q3)]; [auto|contradiction|right; auto]. }
  destruct (All (g_nodes g) (fun _ => []) (incl_refl _)) as (df & E & N & T & D). exists df. split; [auto|]. split; [apply N; intros; constructor|]. split; [intros x y I; apply T in I as [[]|]; auto|].
  intros x y Rx. rewrite D by auto. cbn [In]. split; [intros [[]|(_ & Q)]; auto|]. intros [Q1 Q2]. right. auto.
Qed.
