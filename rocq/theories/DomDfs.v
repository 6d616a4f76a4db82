(** The depth-first search of the dominator algorithm makes a depth-first tree. *)
From Verif Require Import ListLemmas.
From Verif Require Export DomModel DomTheory.
From Coq Require Import ZifyBool ZifyNat.

Definition closed_under (f : Z -> option Z) (X : list Z) : Prop := forall x p, In x X -> f x = Some p -> In p X.
Lemma anc_agree f f' X : closed_under f X -> (forall x, In x X -> f' x = f x) -> forall a x, In x X -> (anc f a x <-> anc f' a x).
Proof.
  intros C E a x I. split; intros A.
  - revert I. induction A as [|a x p P A IH]; intros I; [constructor|]. eapply anc_up; [rewrite E; eauto|]. eauto.
  - revert I. induction A as [|a x p P A IH]; intros I; [constructor|]. rewrite E in P by auto. eapply anc_up; eauto.
Qed.
Lemma anc_closed f X a x : closed_under f X -> In x X -> anc f a x -> In a X.
Proof. intros C I A. induction A; eauto. Qed.

(** The state while the successors of [node] are searched. *)
Definition searched (g : digraph) (node index : Z) (h0 : heap) (vis0 : list Z) (h : heap) (vis res : list Z) : Prop :=
  vis = vis0 ++ res /\ (exists R, res = node :: R) /\ NoDup vis /\
  (h_semi h = h_semi h0 /\ h_idom h = h_idom h0 /\ h_anc h = h_anc h0 /\ h_bucket h = h_bucket h0 /\ h_children h = h_children h0) /\
  (forall x, ~ In x res -> h_idx h x = h_idx h0 x /\ h_pred h x = h_pred h0 x /\ h_succ h x = h_succ h0 x) /\
  (forall x, ~ In x res \/ x = node -> h_par h x = h_par h0 x) /\
  (forall x, In x res -> x <> node -> exists p, h_par h x = Some p /\ In p res /\ (pos res p < pos res x)%nat /\ edge g p x /\ h_idx h x = h_idx h p + 1) /\
  h_idx h node = index /\
  (forall x, In x res -> anc (h_par h) node x) /\
  (forall x, In x res -> GraphProofs.node g x /\ h_pred h x = inc g x /\ h_succ h x = nb g x) /\
  (forall v w, In v res -> In w res -> edge g v w -> (pos res v < pos res w)%nat -> anc (h_par h) v w) /\
  (forall a w v, In a res -> In w res -> In v res -> (pos res a <= pos res w <= pos res v)%nat -> anc (h_par h) a v -> anc (h_par h) a w) /\
  (forall v w, In v res -> v <> node -> edge g v w -> In w vis).
Definition ready (g : digraph) (node : Z) (h : heap) (vis : list Z) : Prop :=
  ~ In node vis /\ GraphProofs.node g node /\ NoDup vis /\ incl vis (g_nodes g) /\ closed_under (h_par h) vis /\ (forall p, h_par h node = Some p -> In p vis).
Lemma in_dec' (x : Z) l : In x l \/ ~ In x l. Proof. destruct (in_dec Z.eq_dec x l); auto. Qed.
Lemma nodup_app_disj {A} (l m : list A) : NoDup (l ++ m) -> forall x, In x l -> In x m -> False.
Proof. induction l as [|y l IH]; intros N x I J; [destruct I|]. cbn in N. apply NoDup_cons_iff in N as [N1 N]. destruct I as [->|I]; [apply N1, in_app_iff; auto|eauto]. Qed.
Lemma nodup_app_l {A} (l m : list A) : NoDup (l ++ m) -> NoDup l.
Proof. induction l as [|y l IH]; intros N; [constructor|]. cbn in N. apply NoDup_cons_iff in N as [N1 N]. constructor; [intros X; apply N1, in_app_iff; auto|auto]. Qed.

Lemma searched_start g node index h vis : wf g -> ready g node h vis -> searched g node index h vis (set_visit h node index (inc g node) (nb g node)) (vis ++ [node]) [node].
Proof.
  intros W (N & G & Nd & I & C & P). unfold searched. cbn [set_visit h_idx h_par h_semi h_idom h_anc h_bucket h_pred h_succ h_children]. unfold upd.
  split; [auto|]. split; [eauto|]. split; [apply nodup_snoc; auto|]. split; [auto|].
  split. { intros x X. destruct (Z.eqb_spec x node) as [->|]; [exfalso; apply X; left; auto|auto]. }
  split; [auto|]. split; [intros x [->|[]]; congruence|]. split; [now rewrite Z.eqb_refl|].
  split; [intros x [->|[]]; constructor|]. split; [intros x [->|[]]; rewrite Z.eqb_refl; auto|].
  split; [intros v w [->|[]] [->|[]]; intros; constructor|]. split; [intros a w v [->|[]] [->|[]]; intros; constructor|]. intros v w [->|[]]; congruence.
Qed.
Lemma searched_closed g node index h0 vis0 h vis res : ready g node h0 vis0 -> searched g node index h0 vis0 h vis res -> closed_under (h_par h) vis.
Proof.
  intros (N & G & Nd & I & C & P) (-> & (R & ER) & Nv & _ & _ & Fp & T & _) x p X Px. apply in_app_iff in X as [X|X].
  - rewrite Fp in Px; [|left; intros Y; eapply nodup_app_disj; eauto]. apply in_app_iff. left. eauto.
  - destruct (Z.eq_dec x node) as [->|n]; [rewrite Fp in Px by auto; apply in_app_iff; left; auto|]. destruct (T x X n) as (q & Q & Iq & _). assert (q = p) as -> by congruence. apply in_app_iff; auto.
Qed.
Lemma searched_vis g node index h0 vis0 h vis res x : searched g node index h0 vis0 h vis res -> (In x vis <-> In x vis0 \/ In x res).
Proof. intros (-> & _). apply in_app_iff. Qed.

(** One more subtree. *)
Lemma searched_step g node index h0 vis0 h vis res n h2 sub : wf g -> ready g node h0 vis0 -> searched g node index h0 vis0 h vis res ->
  edge g node n -> ~ In n vis -> searched g n (index + 1) (set_par h n (Some node)) vis h2 (vis ++ sub) sub -> (forall v w, In v sub -> edge g v w -> In w (vis ++ sub)) ->
  searched g node index h0 vis0 h2 (vis ++ sub) (res ++ sub).
Proof.
  intros W Rd S En Nn S2 Cl. pose proof (searched_closed _ _ _ _ _ _ _ _ Rd S) as Cv. pose proof Rd as (N & G & Nd & I & C & P).
  pose proof S as (-> & (R & ER) & Nv & Fh & Fi & Fp & T & Ix & A & Pr & D4 & D5 & Ss).
  destruct S2 as (_ & (R2 & ER2) & Nv2 & Fh2 & Fi2 & Fp2 & T2 & Ix2 & A2 & Pr2 & D42 & D52 & Ss2).
  cbn [set_par h_semi h_idom h_anc h_bucket h_children h_idx h_pred h_succ h_par] in *. unfold upd in *.
  assert (Disj : forall x, In x (vis0 ++ res) -> ~ In x sub) by (intros x X Y; exact (nodup_app_disj _ _ Nv2 x X Y)).
  assert (Dres : forall x, In x res -> ~ In x sub) by (intros x X; apply Disj, in_app_iff; auto).
  assert (NodeIn : In node res) by (rewrite ER; left; auto). assert (NIn : In n sub) by (rewrite ER2; left; auto).
  assert (Par2 : forall x, In x (vis0 ++ res) -> h_par h2 x = h_par h x).
  { intros x X. rewrite Fp2 by (left; auto). destruct (Z.eqb_spec x n) as [->|]; [contradiction|auto]. }
  assert (Idx2 : forall x, In x (vis0 ++ res) -> h_idx h2 x = h_idx h x) by (intros x X; apply Fi2; auto).
  assert (ParN : h_par h2 n = Some node) by (rewrite Fp2 by auto; now rewrite Z.eqb_refl).
  assert (Ag : forall a x, In x (vis0 ++ res) -> (anc (h_par h) a x <-> anc (h_par h2) a x)) by (apply anc_agree; auto).
  assert (Rv : forall x, In x res -> In x (vis0 ++ res)) by (intros; apply in_app_iff; auto).
  assert (A3 : forall x, In x (res ++ sub) -> anc (h_par h2) node x).
  { intros x X. apply in_app_iff in X as [X|X]; [apply Ag; auto|]. apply anc_trans with n; [|auto]. eapply anc_up; [exact ParN|constructor]. }
  (* climbing out of the new subtree passes [node] *)
  assert (Climb : forall a v, In v sub -> anc (h_par h2) a v -> In a sub \/ anc (h_par h2) a node).
  { intros a v V Av. induction Av as [v|a v p Pv Av IH]; [auto|]. destruct (Z.eq_dec v n) as [->|nv]; [assert (p = node) as -> by congruence; auto|].
    destruct (T2 v V nv) as (q & Q & Iq & _). assert (q = p) as -> by congruence. auto. }
  assert (AncNode : forall a, anc (h_par h2) a node -> a = node \/ In a vis0).
  { intros a Aa. apply Ag in Aa; [|auto]. inversion Aa as [|? ? p Pn Ap]; subst; [auto|]. right. rewrite Fp in Pn by auto.
    assert (Cp : closed_under (h_par h) vis0). { intros x q X Q. rewrite Fp in Q; [eauto|]. left. intros Y. exact (nodup_app_disj _ _ Nv x X Y). }
    eapply anc_closed; eauto. }
  assert (NotR : forall x, In x sub -> ~ In x res) by (intros x X Y; eapply Dres; eauto).
  assert (PosL : forall x, In x res -> pos (res ++ sub) x = pos res x) by (intros; now apply pos_app_l).
  assert (PosR : forall x, In x sub -> pos (res ++ sub) x = (length res + pos sub x)%nat) by (intros; apply pos_app_r; auto).
  assert (LtR : forall x, In x res -> (pos res x < length res)%nat) by (intros; now apply pos_lt).
  assert (Inv : forall x, In x (vis0 ++ res) -> In x ((vis0 ++ res) ++ sub)) by (intros; apply in_app_iff; auto).
  unfold searched. split; [now rewrite app_assoc|]. split; [exists (R ++ sub); rewrite ER; auto|]. split; [auto|].
  split. { destruct Fh as (F1 & F2 & F3 & F4 & F5), Fh2 as (F1' & F2' & F3' & F4' & F5'). rewrite <- F1, <- F2, <- F3, <- F4, <- F5. auto. }
  split. { intros x X. rewrite in_app_iff in X. destruct (Fi2 x) as (-> & -> & ->); [auto|]. apply Fi. auto. }
  split.
  { intros x [X| ->]; [|rewrite Par2 by auto; apply Fp; auto]. rewrite in_app_iff in X. rewrite Fp2 by (left; auto). destruct (Z.eqb_spec x n) as [->|]; [exfalso; auto|]. apply Fp. auto. }
  split.
  { intros x X Nx. apply in_app_iff in X as [X|X].
    - destruct (T x X Nx) as (p & P1 & P2 & P3 & P4 & P5). exists p. rewrite Par2, !Idx2 by auto. rewrite !PosL by auto. split; [auto|]. split; [apply in_app_iff; auto|]. auto.
    - destruct (Z.eq_dec x n) as [->|nx].
      + exists node. split; [auto|]. split; [apply in_app_iff; auto|]. rewrite (PosL node NodeIn), (PosR n NIn). specialize (LtR node NodeIn). split; [lia|]. split; [auto|]. rewrite Ix2, Idx2 by auto. now rewrite Ix.
      + destruct (T2 x X nx) as (p & P1 & P2 & P3 & P4 & P5). exists p. split; [auto|]. split; [apply in_app_iff; auto|]. rewrite (PosR p P2), (PosR x X). split; [lia|]. auto. }
  split; [rewrite Idx2 by auto; auto|]. split; [auto|].
  split. { intros x X. apply in_app_iff in X as [X|X]; [|auto]. destruct (Fi2 x) as (_ & -> & ->); auto. }
  split.
  { intros v w V Ww Ev L. apply in_app_iff in V as [V|V], Ww as [Ww|Ww].
    - rewrite (PosL v V), (PosL w Ww) in L. apply Ag; auto.
    - destruct (Z.eq_dec v node) as [->|nv]; [apply A3, in_app_iff; auto|]. exfalso. apply (Disj w); [|auto]. eapply Ss; eauto.
    - rewrite (PosR v V), (PosL w Ww) in L. specialize (LtR w Ww). lia.
    - rewrite (PosR v V), (PosR w Ww) in L. apply D42; auto. lia. }
  split.
  { intros a w v Ia Iw Iv L Aav. apply in_app_iff in Iv as [Iv|Iv].
    - assert (Iw' : In w res). { apply in_app_iff in Iw as [Iw|Iw]; [auto|]. rewrite (PosR w), (PosL v) in L by auto. specialize (LtR v Iv). lia. }
      assert (Ia' : In a res). { apply in_app_iff in Ia as [Ia|Ia]; [auto|]. rewrite (PosR a), (PosL w) in L by auto. specialize (LtR w Iw'). lia. }
      rewrite (PosL a Ia'), (PosL w Iw'), (PosL v Iv) in L. apply Ag; [auto|]. apply Ag in Aav; [|auto]. exact (D5 a w v Ia' Iw' Iv L Aav).
    - apply in_app_iff in Ia as [Ia|Ia].
      + destruct (Climb a v Iv Aav) as [X|X]; [exfalso; eapply Dres; eauto|]. apply AncNode in X as [->|X]; [auto|]. exfalso. eapply nodup_app_disj; [exact Nv|exact X|exact Ia].
      + assert (Iw' : In w sub). { apply in_app_iff in Iw as [Iw|Iw]; [|auto]. rewrite (PosR a), (PosL w) in L by auto. specialize (LtR w Iw). lia. }
        rewrite (PosR a Ia), (PosR w Iw'), (PosR v Iv) in L. apply (D52 a w v); auto. lia. }
  { intros v w V Nv' Ev. apply in_app_iff in V as [V|V]; [apply Inv; eapply Ss; eauto|eauto]. }
Qed.

Lemma dfs_ok g : wf g -> forall fuel node index h vis, ready g node h vis -> (length (g_nodes g) <= length vis + fuel)%nat ->
  exists h' res, dfs fuel g h vis node index = Ok (h', vis ++ res, res) /\ searched g node index h vis h' (vis ++ res) res /\ (forall v w, In v res -> edge g v w -> In w (vis ++ res)).
Proof.
  intros W. induction fuel as [|fuel IH]; intros node index h vis Rd L.
  - exfalso. destruct Rd as (N & G & Nd & I & _). assert (X : (length (node :: vis) <= length (g_nodes g))%nat).
    { apply NoDup_incl_length; [constructor; auto|]. intros x [<-|X]; [exact G|auto]. }
    cbn in X. lia.
  - cbn [dfs]. pose proof Rd as (N & G & Nd & I & C & P). rewrite incidents_ok, neighbors_ok by auto. cbn [bind].
    set (step := fun (s : heap * list Z * list Z) n => _).
    assert (Es : forall h vis res n, step (h, vis, res) n = if zmem n vis then Ok (h, vis, res) else let* r := dfs fuel g (set_par h n (Some node)) vis n (index + 1) in let '(h, vis, sub) := r in Ok (h, vis, res ++ sub)) by reflexivity.
    assert (Loop : forall outs h1 vis1 res1, (forall x, In x outs -> edge g node x) -> searched g node index h vis h1 vis1 res1 ->
      exists h' res, foldM step outs (h1, vis1, res1) = Ok (h', vis ++ res, res) /\ searched g node index h vis h' (vis ++ res) res /\ (forall x, In x outs \/ In x vis1 -> In x (vis ++ res))).
    { induction outs as [|n outs IHo]; intros h1 vis1 res1 Eo S.
      - exists h1, res1. cbn [foldM]. pose proof S as (E1 & _). rewrite <- E1. split; [auto|]. split; [auto|]. intros x [[]|X]; auto.
      - cbn [foldM]. rewrite Es. destruct (zmem n vis1) eqn:Zm.
        + apply zmem_in in Zm. cbn [bind]. destruct (IHo h1 vis1 res1) as (h' & res & E & S' & H); [intros; apply Eo; right; auto|auto|]. exists h', res. split; [auto|]. split; [auto|]. intros x [[->|X]|X]; auto.
        + apply zmem_notin in Zm. pose proof S as (E1 & (R1 & ER1) & Nv1 & _). pose proof (searched_closed _ _ _ _ _ _ _ _ Rd S) as Cv.
          assert (NodeIn : In node res1) by (rewrite ER1; left; auto).
          assert (Gn : forall x, In x res1 -> GraphProofs.node g x) by (intros x X; destruct S as (_ & _ & _ & _ & _ & _ & _ & _ & _ & Pr & _); apply Pr; auto).
          destruct (IH n (index + 1) (set_par h1 n (Some node)) vis1) as (h2 & sub & E2 & S2 & C2).
          { split; [auto|]. split; [eapply edge_nodes; [auto|apply Eo; left; auto]|]. split; [auto|]. split.
            { intros x X. rewrite E1 in X. apply in_app_iff in X as [X|X]; [auto|apply Gn; auto]. }
            cbn [set_par h_par]. unfold upd. split.
            { intros x p X. destruct (Z.eqb_spec x n) as [->|]; [contradiction|eauto]. }
            rewrite Z.eqb_refl. intros p [= <-]. rewrite E1. apply in_app_iff; auto. }
          { rewrite E1, app_length, ER1. cbn [length]. lia. }
          rewrite E2. cbn [bind]. destruct (IHo h2 (vis1 ++ sub) (res1 ++ sub)) as (h' & res & E & S' & H).
          { intros; apply Eo; right; auto. } { eapply searched_step; eauto. apply Eo; left; auto. }
          exists h', res. split; [auto|]. split; [auto|]. intros x [[->|X]|X]; [apply H|apply H; auto|apply H; right; apply in_app_iff; auto].
          right. apply in_app_iff. right. destruct S2 as (_ & (R2 & ->) & _). left; auto. }
    destruct (Loop (nb g node) _ _ _ (fun x X => X) (searched_start g node index h vis W Rd)) as (h' & res & E & S & H).
    exists h', res. split; [auto|]. split; [auto|]. intros v w V Ev. destruct (Z.eq_dec v node) as [->|nv]; [apply H; auto|]. destruct S as (_ & _ & _ & _ & _ & _ & _ & _ & _ & _ & _ & _ & Ss). eapply Ss; eauto.
Qed.
