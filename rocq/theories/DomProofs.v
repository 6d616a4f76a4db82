(** Correctness of the dominator algorithm. *)
From Verif Require Import ListLemmas.
From Verif Require Export DomDfs.
From Coq Require Import ZifyBool ZifyNat.

(** What the search leaves. *)
Definition explored (g : digraph) (root : Z) (h : heap) (V : list Z) : Prop :=
  wf g /\ dtree (edge g) root V (h_par h) /\ (forall x, In x V -> 0 <= h_idx h x) /\
  (forall x p, In x V -> h_par h x = Some p -> h_idx h x = h_idx h p + 1) /\ (forall x, ~ In x V -> h_idx h x = -1) /\
  (forall x, In x V -> h_pred h x = inc g x) /\ (length V <= length (g_nodes g))%nat.
Lemma dfs_explored g root : wf g -> node g root -> exists h V, dfs (length (g_nodes g)) g fresh_heap [] root 0 = Ok (h, V, V) /\ explored g root h V /\
  (forall x, h_semi h x = x) /\ (forall x, h_idom h x = None) /\ (forall x, h_anc h x = None) /\ (forall x, h_bucket h x = []) /\ (forall x, h_children h x = []) /\
  (forall x, In x V -> h_succ h x = nb g x) /\ (forall x, ~ In x V -> h_pred h x = [] /\ h_succ h x = []) /\ incl V (g_nodes g).
Proof.
  intros W R. destruct (dfs_ok g W (length (g_nodes g)) root 0 fresh_heap []) as (h & V & E & S & C).
  { split; [auto|]. split; [auto|]. split; [constructor|]. split; [intros x []|]. split; [intros x p []|]. discriminate. } { cbn. lia. }
  cbn [app] in *. exists h, V. split; [auto|]. destruct S as (_ & Hd & Nd & (F1 & F2 & F3 & F4 & F5) & Fi & Fp & T & Ix & A & Pr & D4 & D5 & Ss).
  assert (Iv : incl V (g_nodes g)) by (intros x X; apply Pr; auto).
  split.
  - split; [auto|]. assert (D : dtree (edge g) root V (h_par h)).
    { split; [auto|]. split; [auto|]. split; [intros w Ww Nw; destruct (T w Ww Nw) as (p & P1 & P2 & P3 & P4 & _); exists p; auto|]. split; [now rewrite Fp by auto|]. split; [exact C|]. auto. }
    split; [auto|]. assert (Par : forall x p, In x V -> h_par h x = Some p -> h_idx h x = h_idx h p + 1 /\ In p V /\ (pos V p < pos V x)%nat).
    { intros x p X P. destruct (Z.eq_dec x root) as [->|n]; [rewrite Fp in P by auto; discriminate|]. destruct (T x X n) as (q & Q1 & Q2 & Q3 & _ & Q5). assert (q = p) as -> by congruence. auto. }
    split.
    { intros x. remember (pos V x) as n. revert x Heqn. induction n as [n IH] using lt_wf_ind. intros x -> X. destruct (Z.eq_dec x root) as [->|nr]; [lia|].
      destruct (T x X nr) as (p & P1 & P2 & P3 & _ & P5). specialize (IH _ P3 p eq_refl P2). lia. }
    split; [intros x p X P; apply Par; auto|]. split; [intros x X; now destruct (Fi x X) as (-> & _)|]. split; [intros x X; apply Pr; auto|]. now apply NoDup_incl_length.
  - rewrite F1, F2, F3, F4, F5. cbn [fresh_heap h_semi h_idom h_anc h_bucket h_children]. split; [auto|]. split; [auto|]. split; [auto|]. split; [auto|]. split; [auto|].
    split; [intros x X; apply Pr; auto|]. split; [intros x X; now destruct (Fi x X) as (_ & -> & ->)|auto].
Qed.

Ltac inV := match goal with D : dtree ?E ?r ?V ?par, Hx : In ?x ?V, A : anc ?par ?a ?x |- In ?a ?V => exact (anc_in E r V par a x D Hx A) end.
(** Depth and position agree along a chain of ancestors. *)
Lemma depth_lt g root h V a x : explored g root h V -> In x V -> anc (h_par h) a x -> a <> x -> h_idx h a < h_idx h x.
Proof.
  intros (_ & D & _ & I & _) X A. revert X. induction A as [|a x p P A IH]; intros X N; [congruence|]. pose proof (I x p X P).
  assert (Pv : In p V) by (eapply anc_in; [eauto|exact X|]; eapply anc_up; [eauto|constructor]). destruct (Z.eq_dec a p) as [->|n]; [lia|]. specialize (IH Pv n). lia.
Qed.
Lemma depth_pos g root h V a b w : explored g root h V -> In w V -> anc (h_par h) a w -> anc (h_par h) b w -> (h_idx h a < h_idx h b <-> (pos V a < pos V b)%nat).
Proof.
  intros X Ww A B. pose proof X as (_ & D & _). assert (Av : In a V) by inV. assert (Bv : In b V) by inV.
  destruct (Nat.le_gt_cases (pos V a) (pos V b)) as [L|L].
  - assert (C : anc (h_par h) a b) by exact (anc_chain _ _ _ _ _ _ _ D Ww A B L). destruct (Z.eq_dec a b) as [->|n]; [lia|]. pose proof (depth_lt _ _ _ _ _ _ X Bv C n). pose proof (anc_lt _ _ _ _ _ _ D Bv C n). lia.
  - assert (C : anc (h_par h) b a) by (apply (anc_chain _ _ _ _ _ _ _ D Ww B A); lia). assert (n : b <> a) by (intros ->; lia). pose proof (depth_lt _ _ _ _ _ _ X Av C n). lia.
Qed.

(** ** eval *)
(** The nodes from position [t] on are linked and have their semidominator. *)
Definition linked (g : digraph) (V : list Z) (h0 h : heap) (t : nat) : Prop :=
  h_idx h = h_idx h0 /\
  (forall x, In x V -> (t <= pos V x)%nat -> h_anc h x = h_par h0 x /\ is_sdom (edge g) V (h_semi h x) x) /\
  (forall x, ~ In x V \/ (pos V x < t)%nat -> h_anc h x = None).
Lemma semi_idx_ok h v : 0 <= h_idx h (h_semi h v) -> semi_idx h v = Ok (h_idx h (h_semi h v)).
Proof. intros H. unfold semi_idx. destruct (Z.ltb_spec (h_idx h (h_semi h v)) 0); [lia|auto]. Qed.
Lemma eval_unlinked fuel h v : h_anc h v = None -> eval fuel h v = Ok v.
Proof. intros H. unfold eval. now rewrite H. Qed.
Lemma eval_linked g root V h0 h t v : explored g root h0 V -> linked g V h0 h t -> (1 <= t)%nat -> In v V -> (t <= pos V v)%nat ->
  exists u, eval (length (g_nodes g)) h v = Ok u /\ anc (h_par h0) u v /\ (t <= pos V u)%nat /\
    forall x, anc (h_par h0) x v -> (t <= pos V x)%nat -> (pos V (h_semi h u) <= pos V (h_semi h x))%nat.
Proof.
  intros X (Li & Ll & Lu) T Vv Lv. pose proof X as (W & D & Ip & Id & Io & Pp & Len).
  assert (Sa : forall x, anc (h_par h0) x v -> (t <= pos V x)%nat -> anc (h_par h0) (h_semi h x) v).
  { intros x A L. assert (Xv : In x V) by inV. destruct (Ll x Xv L) as [_ S]. destruct (sdom_anc _ root _ _ _ _ D S) as [Q _]. eapply anc_trans; eauto. }
  assert (Si : forall x, anc (h_par h0) x v -> (t <= pos V x)%nat -> 0 <= h_idx h (h_semi h x)).
  { intros x A L. rewrite Li. apply Ip. eapply anc_in; [eauto|exact Vv|]. auto. }
  assert (Cmp : forall x y, anc (h_par h0) x v -> (t <= pos V x)%nat -> anc (h_par h0) y v -> (t <= pos V y)%nat -> (h_idx h (h_semi h x) < h_idx h (h_semi h y) <-> (pos V (h_semi h x) < pos V (h_semi h y))%nat)).
  { intros x y A1 A2 B1 B2. rewrite Li. apply (depth_pos g root h0 V _ _ v X Vv); auto. }
  assert (Loop : forall fuel a best, (pos V a < fuel)%nat -> anc (h_par h0) a v -> anc (h_par h0) best v -> (t <= pos V best)%nat ->
    (forall x, anc (h_par h0) x v -> (t <= pos V x)%nat -> (pos V a < pos V x)%nat -> (pos V (h_semi h best) <= pos V (h_semi h x))%nat) ->
    exists u, eval_loop fuel h best a = Ok u /\ anc (h_par h0) u v /\ (t <= pos V u)%nat /\ forall x, anc (h_par h0) x v -> (t <= pos V x)%nat -> (pos V (h_semi h u) <= pos V (h_semi h x))%nat).
  { induction fuel as [|fuel IH]; intros a best F A B Lb M; [lia|]. assert (Av : In a V) by inV. cbn [eval_loop].
    destruct (Nat.le_gt_cases t (pos V a)) as [La|La].
    - destruct (Ll a Av La) as [Pa _]. rewrite Pa. pose proof D as (_ & _ & Tr & Rt & _).
      assert (Nr : a <> root) by (intros ->; rewrite (root_pos _ _ _ _ D) in La; lia).
      destruct (Tr a Av Nr) as (p & P1 & P2 & _ & P4). rewrite P1. rewrite (semi_idx_ok h best), (semi_idx_ok h a) by auto. cbn [bind].
      pose proof (Cmp a best A La B Lb) as Cb.
      apply IH; [lia|eapply anc_trans; [|exact A]; eapply anc_up; [eauto|constructor]|destruct (_ <? _); auto|destruct (_ <? _); auto|].
      intros x Ax Lx Px. assert (Xv : In x V) by inV.
      destruct (Nat.eq_dec (pos V x) (pos V a)) as [Ex|Nx].
      + apply (pos_inj V) in Ex; auto. subst x. destruct (Z.ltb_spec (h_idx h (h_semi h a)) (h_idx h (h_semi h best))); lia.
      + assert (Lxa : (pos V a < pos V x)%nat).
        { destruct (Nat.lt_ge_cases (pos V a) (pos V x)); [auto|]. exfalso. assert (C : anc (h_par h0) x a) by (apply (anc_chain _ _ _ _ _ _ _ D Vv Ax A); lia).
          inversion C as [|? ? q Q1 Q2]; subst; [lia|]. assert (q = p) as -> by congruence. pose proof (anc_le _ _ _ _ _ _ D P2 Q2). lia. }
        specialize (M x Ax Lx Lxa). destruct (Z.ltb_spec (h_idx h (h_semi h a)) (h_idx h (h_semi h best))); lia.
    - rewrite (Lu a) by auto. exists best. split; [auto|]. split; [auto|]. split; [auto|]. intros x Ax Lx. apply M; auto. lia. }
  unfold eval. destruct (Ll v Vv Lv) as [Pv _]. rewrite Pv. pose proof D as (_ & _ & Tr & Rt & _).
  assert (Nr : v <> root) by (intros ->; rewrite (root_pos _ _ _ _ D) in Lv; lia).
  destruct (Tr v Vv Nr) as (p & P1 & P2 & _ & P4). rewrite P1. apply Loop.
  - apply pos_lt in P2. lia.
  - eapply anc_up; [eauto|constructor].
  - constructor.
  - auto.
  - intros x Ax Lx Px. inversion Ax as [|? ? q Q1 Q2]; subst; [lia|]. assert (q = p) as -> by congruence. pose proof (anc_le _ _ _ _ _ _ D P2 Q2). lia.
Qed.
Lemma highest_linked E root V par t v : dtree E root V par -> (1 <= t)%nat -> In v V -> (t <= pos V v)%nat -> exists c p, anc par c v /\ In c V /\ (t <= pos V c)%nat /\ par c = Some p /\ (pos V p < t)%nat.
Proof.
  intros D T. pose proof D as (_ & _ & Tr & _). remember (pos V v) as n. revert v Heqn. induction n as [n IH] using lt_wf_ind. intros v -> Vv Lv.
  assert (Nr : v <> root) by (intros ->; rewrite (root_pos _ _ _ _ D) in Lv; lia). destruct (Tr v Vv Nr) as (p & P1 & P2 & _ & P4).
  destruct (Nat.lt_ge_cases (pos V p) t) as [L|L]; [exists v, p; split; [constructor|auto]|].
  destruct (IH _ P4 p eq_refl P2 L) as (c & q & C1 & C2). exists c, q. split; [eapply anc_up; eauto|auto].
Qed.

(** ** The semidominator of one vertex *)
Definition cand_from (E : rel) (V : list Z) (par : Z -> option Z) (w v x : Z) : Prop :=
  ((pos V v < pos V w)%nat /\ x = v) \/ ((pos V w < pos V v)%nat /\ exists u, anc par u v /\ (pos V w < pos V u)%nat /\ is_sdom E V x u).
Lemma set_semi_other h w s x : x <> w -> h_semi (set_semi h w s) x = h_semi h x.
Proof. intros N. cbn [set_semi h_semi]. unfold upd. destruct (Z.eqb_spec x w); [contradiction|auto]. Qed.
Lemma set_semi_same h w s : h_semi (set_semi h w s) w = s.
Proof. cbn [set_semi h_semi]. unfold upd. now rewrite Z.eqb_refl. Qed.

Lemma see_pred_ok g root V h0 h w v (done : list Z) :
  explored g root h0 V -> linked g V h0 h (S (pos V w)) -> In w V -> w <> root ->
  (forall x, (pos V x < pos V w)%nat -> h_semi h x = x) ->
  edge g v w -> In v V ->
  anc (h_par h0) (h_semi h w) w -> (h_semi h w = w \/ cand (edge g) V (h_par h0) w (h_semi h w)) ->
  (forall d y, In d done -> cand_from (edge g) V (h_par h0) w d y -> (pos V (h_semi h w) <= pos V y)%nat) ->
  exists s, see_pred (length (g_nodes g)) w h v = Ok s /\ (s = h \/ exists x, s = set_semi h w x) /\
    anc (h_par h0) (h_semi s w) w /\ (h_semi s w = w \/ cand (edge g) V (h_par h0) w (h_semi s w)) /\
    (forall d y, In d (done ++ [v]) -> cand_from (edge g) V (h_par h0) w d y -> (pos V (h_semi s w) <= pos V y)%nat).
Proof.
  intros X L Ww Nr Sb Ev Vv Aw Cw Md. pose proof X as (W & D & Ip & Id & Io & Pp & Len). pose proof L as (Li & Ll & Lu). unfold see_pred.
  assert (Sv : In (h_semi h w) V) by inV.
  (* what eval finds *)
  assert (Ev' : exists u, eval (length (g_nodes g)) h v = Ok u /\ anc (h_par h0) (h_semi h u) w /\ In (h_semi h u) V /\ (v = w -> u = w) /\
    (v <> w -> cand (edge g) V (h_par h0) w (h_semi h u)) /\ (forall y, cand_from (edge g) V (h_par h0) w v y -> (pos V (h_semi h u) <= pos V y)%nat)).
  { destruct (Nat.lt_trichotomy (pos V v) (pos V w)) as [Lv|[Ev2|Lv]].
    - exists v. rewrite eval_unlinked by (apply Lu; right; lia). split; [auto|]. rewrite Sb by auto. split; [apply D; auto|]. split; [auto|]. split; [intros ->; lia|]. split.
      + intros _. exists v. auto.
      + intros y [[_ ->]|[Q _]]; lia.
    - apply (pos_inj V) in Ev2; auto. subst v. exists w. rewrite eval_unlinked by (apply Lu; right; lia). split; [auto|]. split; [auto|]. split; [auto|]. split; [auto|]. split; [congruence|].
      intros y [[Q _]|[Q _]]; lia.
    - destruct (eval_linked g root V h0 h (S (pos V w)) v X L) as (u & Eu & Au & Lu' & Mu); [lia|auto|lia|]. exists u. split; [auto|].
      assert (Uv : In u V) by inV. destruct (Ll u Uv Lu') as [_ Su].
      assert (Cu : cand (edge g) V (h_par h0) w (h_semi h u)). { exists v. split; [auto|]. split; [auto|]. right. split; [lia|]. exists u. split; [auto|]. split; [lia|auto]. }
      destruct (cand_semi _ _ _ _ _ _ D Ww Cu) as [Xv Px].
      assert (Le : (pos V (h_semi h u) <= pos V w)%nat).
      { destruct (highest_linked _ root V _ (S (pos V w)) v D) as (c & p & C1 & C2 & C3 & C4 & C5); [lia|auto|lia|].
        specialize (Mu c C1 C3). destruct (Ll c C2 C3) as [_ (_ & _ & _ & Mc)]. assert (Nc : c <> root) by (intros ->; rewrite (root_pos _ _ _ _ D) in C3; lia).
        pose proof D as (_ & _ & Tr & _). destruct (Tr c C2 Nc) as (p' & P1 & P2 & P3 & P4). assert (p' = p) as -> by congruence.
        assert (pos V (h_semi h c) <= pos V p)%nat; [|lia]. apply Mc; [auto|]. exists []. split; [now constructor|constructor]. }
      split. { destruct (Nat.eq_dec (pos V (h_semi h u)) (pos V w)) as [Eq|Ne]; [apply (pos_inj V) in Eq; auto; rewrite Eq; constructor|]. eapply semi_anc; eauto. lia. }
      split; [auto|]. split; [intros ->; lia|]. split; [auto|]. intros y [[Q _]|[_ (u' & A' & L' & S')]]; [lia|].
      assert (Uv' : In u' V) by inV. specialize (Mu u' A' L'). destruct (Ll u' Uv' L') as [_ Su']. now rewrite (sdom_unique _ _ _ _ _ Su' S') in Mu. }
  destruct Ev' as (u & Eu & Au & Uv & Hw & Hc & Hm). rewrite Eu. cbn [bind]. rewrite (semi_idx_ok h u), (semi_idx_ok h w) by (rewrite Li; auto). cbn [bind].
  pose proof (depth_pos g root h0 V _ _ w X Ww Au Aw) as Cmp. rewrite <- Li in Cmp.
  destruct (Z.ltb_spec (h_idx h (h_semi h u)) (h_idx h (h_semi h w))) as [Lt|Ge].
  - eexists. split; [reflexivity|]. split; [right; eauto|]. rewrite set_semi_same. split; [auto|]. split.
    + right. apply Hc. intros ->. rewrite Hw in Lt by auto. lia.
    + intros d y I C. apply in_app_iff in I as [I|[<-|[]]]; [|auto]. specialize (Md d y I C). lia.
  - exists h. split; [auto|]. split; [auto|]. split; [auto|]. split; [auto|]. intros d y I C. apply in_app_iff in I as [I|[<-|[]]]; [eauto|]. specialize (Hm y C). lia.
Qed.
