(** The main loop of the dominator algorithm. *)
From Verif Require Import ListLemmas.
From Verif Require Export DomProofs.
From Coq Require Import ZifyBool ZifyNat.

(** [d] is what the first pass leaves as the dominator of [v]: its semidominator if no
    node between has a lower one, and otherwise a node between with the lowest one. *)
Definition between par s v u := anc par s u /\ s <> u /\ anc par u v.
Definition settled (E : rel) (V : list Z) (par : Z -> option Z) (v d : Z) : Prop :=
  exists s, is_sdom E V s v /\
    ((d = s /\ forall u x, between par s v u -> is_sdom E V x u -> (pos V s <= pos V x)%nat) \/
     (exists sd, is_sdom E V sd d /\ between par s v d /\ (pos V sd < pos V s)%nat /\ forall u x, between par s v u -> is_sdom E V x u -> (pos V sd <= pos V x)%nat)).

Definition stage (g : digraph) (root : Z) (V : list Z) (h0 h : heap) (t : nat) : Prop :=
  linked g V h0 h t /\ h_par h = h_par h0 /\ h_pred h = h_pred h0 /\ h_succ h = h_succ h0 /\ h_children h = h_children h0 /\
  (forall x, ~ In x V \/ (pos V x < t)%nat -> h_semi h x = x) /\
  (forall x v, In v (h_bucket h x) -> In v V /\ (t <= pos V v)%nat /\ is_sdom (edge g) V x v /\ forall c, h_par h0 c = Some x -> anc (h_par h0) c v -> (pos V c < t)%nat) /\
  (forall v, In v V -> (t <= pos V v)%nat -> (exists x, In v (h_bucket h x)) \/ exists d, h_idom h v = Some d /\ settled (edge g) V (h_par h0) v d) /\
  (forall x, ~ In x V \/ x = root -> h_idom h x = None).

Lemma edge_inc g u v : wf g -> (edge g u v <-> In u (inc g v)).
Proof. intros W. apply W. Qed.
(** the semidominator loop *)
Definition semi_only (w : Z) (h h' : heap) : Prop :=
  h_idx h' = h_idx h /\ h_par h' = h_par h /\ h_idom h' = h_idom h /\ h_anc h' = h_anc h /\ h_bucket h' = h_bucket h /\ h_pred h' = h_pred h /\ h_succ h' = h_succ h /\ h_children h' = h_children h /\
  forall x, x <> w -> h_semi h' x = h_semi h x.
Lemma semi_only_refl w h : semi_only w h h.
Proof. repeat split. Qed.
Lemma semi_only_trans w a b c : semi_only w a b -> semi_only w b c -> semi_only w a c.
Proof. intros (A1 & A2 & A3 & A4 & A5 & A6 & A7 & A8 & A9) (B1 & B2 & B3 & B4 & B5 & B6 & B7 & B8 & B9). repeat split; try congruence. intros x N. now rewrite B9, A9. Qed.
Lemma semi_only_set w h x : semi_only w h (set_semi h w x).
Proof. repeat split. intros y N. now apply set_semi_other. Qed.
Lemma semi_only_linked g V h0 w h h' : semi_only w h h' -> linked g V h0 h (S (pos V w)) -> linked g V h0 h' (S (pos V w)).
Proof.
  intros (A1 & A2 & A3 & A4 & A5 & A6 & A7 & A8 & A9) (L1 & L2 & L3). split; [congruence|]. split.
  - intros x Xv Lx. rewrite A4, A9 by (intros ->; lia). auto.
  - intros x Q. rewrite A4. auto.
Qed.
Lemma preds_ok g root V h0 h w : explored g root h0 V -> linked g V h0 h (S (pos V w)) -> In w V -> w <> root ->
  (forall x, (pos V x <= pos V w)%nat -> h_semi h x = x) ->
  (forall v, edge g v w -> In v V) ->
  exists h', foldM (see_pred (length (g_nodes g)) w) (inc g w) h = Ok h' /\ semi_only w h h' /\ is_sdom (edge g) V (h_semi h' w) w.
Proof.
  intros X L Ww Nr Sb Pv. pose proof X as (W & D & Ip & Id & Io & Pp & Len).
  assert (Loop : forall rest done k, Forall (fun v => edge g v w) rest -> linked g V h0 k (S (pos V w)) -> (forall x, (pos V x < pos V w)%nat -> h_semi k x = x) ->
    anc (h_par h0) (h_semi k w) w -> (h_semi k w = w \/ cand (edge g) V (h_par h0) w (h_semi k w)) ->
    (forall d y, In d done -> cand_from (edge g) V (h_par h0) w d y -> (pos V (h_semi k w) <= pos V y)%nat) ->
    exists k', foldM (see_pred (length (g_nodes g)) w) rest k = Ok k' /\ semi_only w k k' /\
      (h_semi k' w = w \/ cand (edge g) V (h_par h0) w (h_semi k' w)) /\ anc (h_par h0) (h_semi k' w) w /\
      (forall d y, In d (done ++ rest) -> cand_from (edge g) V (h_par h0) w d y -> (pos V (h_semi k' w) <= pos V y)%nat)).
  { induction rest as [|v rest IH]; intros done k Fe Lk Sk Ak Ck Mk.
    { exists k. rewrite app_nil_r. split; [auto|]. split; [apply semi_only_refl|auto]. }
    inversion Fe as [|? ? Ev Fe']; subst. destruct (see_pred_ok g root V h0 k w v done X Lk Ww Nr Sk Ev (Pv v Ev) Ak Ck Mk) as (k1 & E1 & Sh & A1 & C1 & M1).
    cbn [foldM]. rewrite E1. cbn [bind].
    assert (So : semi_only w k k1) by (destruct Sh as [->|(x & ->)]; [apply semi_only_refl|apply semi_only_set]).
    assert (Lk1 : linked g V h0 k1 (S (pos V w))) by (eapply semi_only_linked; eauto).
    assert (Sk1 : forall x, (pos V x < pos V w)%nat -> h_semi k1 x = x).
    { intros y Ly. destruct So as (_ & _ & _ & _ & _ & _ & _ & _ & So). rewrite So by (intros ->; lia). auto. }
    destruct (IH (done ++ [v]) k1 Fe' Lk1 Sk1 A1 C1 M1) as (k' & E' & Sh' & C' & A' & M'). exists k'. split; [auto|]. split; [eapply semi_only_trans; eauto|]. split; [auto|]. split; [auto|].
    intros d y I. apply M'. rewrite <- app_assoc. auto. }
  destruct (Loop (inc g w) [] h) as (h' & E & So & C & A & M).
  - apply Forall_forall. intros v I. now apply (proj2 (edge_inc g v w W)).
  - auto.
  - intros x Lx. apply Sb. lia.
  - rewrite Sb by lia. constructor.
  - left. apply Sb. lia.
  - intros d y [].
  - exists h'. split; [auto|]. split; [auto|]. cbn [app] in M. pose proof D as (_ & _ & Tr & _). destruct (Tr w Ww Nr) as (p & P1 & P2 & P3 & P4).
    assert (Lt : (pos V (h_semi h' w) <= pos V p)%nat). { apply (M p); [now apply (proj1 (edge_inc g p w W))|]. left. auto. }
    destruct C as [C|C]; [rewrite C in Lt; lia|]. apply (sdom_min (edge g) root V (h_par h0)); auto.
    + intros u Uv Lu. destruct L as (_ & L2 & _). exists (h_semi h u). apply L2; auto.
    + intros y (v & Ev & Vv & Q). apply (M v); [now apply (proj1 (edge_inc g v w W))|]. destruct Q as [[Q1 ->]|[Q1 (u & Q2 & Q3 & Q4)]]; [left; auto|right; eauto 6].
Qed.

(** the bucket loop *)
Definition idom_only (l : list Z) (h h' : heap) : Prop :=
  h_idx h' = h_idx h /\ h_par h' = h_par h /\ h_semi h' = h_semi h /\ h_anc h' = h_anc h /\ h_bucket h' = h_bucket h /\ h_pred h' = h_pred h /\ h_succ h' = h_succ h /\ h_children h' = h_children h /\
  forall x, ~ In x l -> h_idom h' x = h_idom h x.
Lemma toward E root V par s v : dtree E root V par -> In v V -> anc par s v -> s <> v -> exists c, par c = Some s /\ anc par c v.
Proof.
  intros D Vv A. induction A as [|s v p P A IH]; intros N; [congruence|]. assert (Pv : In p V) by (apply (anc_in _ _ _ _ p v D Vv); eapply anc_up; [eauto|constructor]).
  destruct (Z.eq_dec s p) as [->|n]; [exists v; split; [auto|constructor]|]. destruct (IH Pv n) as (c & C1 & C2). exists c. split; [auto|]. eapply anc_up; eauto.
Qed.
Lemma settle_ok g root V h0 h w p v : explored g root h0 V -> linked g V h0 h (pos V w) -> In w V -> w <> root -> h_par h0 w = Some p ->
  In v V -> anc (h_par h0) w v -> is_sdom (edge g) V p v ->
  exists d, settle (length (g_nodes g)) p h v = Ok (set_idom h v (Some d)) /\ settled (edge g) V (h_par h0) v d.
Proof.
  intros X L Ww Nr Pw Vv Av Sv. pose proof X as (W & D & Ip & Id & Io & Pp & Len). pose proof L as (Li & Ll & Lu).
  assert (W1 : (1 <= pos V w)%nat). { destruct (pos V w) eqn:Q; [|lia]. exfalso. apply Nr. eapply pos_root; eauto. }
  pose proof (anc_le _ _ _ _ _ _ D Vv Av) as Lv. destruct (eval_linked g root V h0 h (pos V w) v X L W1 Vv Lv) as (u & Eu & Au & Lu' & Mu).
  assert (Pv : In p V) by (apply (anc_in _ _ _ _ p w D Ww); eapply anc_up; [eauto|constructor]).
  assert (Plt : (pos V p < pos V w)%nat). { apply (anc_lt _ _ _ _ _ _ D Ww); [eapply anc_up; [eauto|constructor]|]. intros ->. pose proof D as (_ & _ & Tr & _). destruct (Tr w Ww Nr) as (q & Q1 & _ & _ & Q4). assert (q = w) as -> by congruence. lia. }
  destruct (sdom_anc _ root _ _ _ _ D Sv) as [Apv Npv].
  assert (Bt : forall y, between (h_par h0) p v y -> anc (h_par h0) y v /\ (pos V w <= pos V y)%nat).
  { intros y (Y1 & Y2 & Y3). split; [auto|]. destruct (Nat.le_gt_cases (pos V w) (pos V y)) as [Q|Q]; [auto|]. exfalso.
    assert (C : anc (h_par h0) y w) by (apply (anc_chain _ _ _ _ _ _ _ D Vv Y3 Av); lia). inversion C as [|? ? q Q1 Q2]; subst; [lia|]. assert (q = p) as -> by congruence.
    pose proof (anc_le _ _ _ _ _ _ D Pv Q2). assert (Yv : In y V) by inV. pose proof (anc_lt _ _ _ _ _ _ D Yv Y1 Y2). lia. }
  assert (Uv : In u V) by inV. destruct (Ll u Uv Lu') as [_ Su]. destruct (Ll v Vv Lv) as [_ Sv']. assert (Es : h_semi h v = p) by (eapply sdom_unique; eauto).
  assert (Min : forall y x, between (h_par h0) p v y -> is_sdom (edge g) V x y -> (pos V (h_semi h u) <= pos V x)%nat).
  { intros y x B Sx. destruct (Bt y B) as [Y1 Y2]. specialize (Mu y Y1 Y2). assert (Yv : In y V) by inV. destruct (Ll y Yv Y2) as [_ Sy]. now rewrite (sdom_unique _ _ _ _ _ Sy Sx) in Mu. }
  destruct (sdom_anc _ root _ _ _ _ D Su) as [Asu Nsu]. assert (Asv : anc (h_par h0) (h_semi h u) v) by (eapply anc_trans; eauto).
  assert (Sin : In (h_semi h u) V) by inV.
  unfold settle. rewrite Eu. cbn [bind]. rewrite (semi_idx_ok h u), (semi_idx_ok h v) by (rewrite Li, ?Es; auto). cbn [bind].
  pose proof (depth_pos g root h0 V _ _ v X Vv Asv Apv) as Cmp. rewrite <- Li in Cmp. rewrite Es. eexists. split; [reflexivity|]. exists p. split; [auto|].
  destruct (Z.ltb_spec (h_idx h (h_semi h u)) (h_idx h p)) as [Lt|Ge].
  - right. exists (h_semi h u). split; [auto|]. split; [|split; [lia|auto]]. split; [apply (anc_chain _ _ _ _ _ _ _ D Vv Apv Au); lia|]. split; [intros ->; lia|auto].
  - left. split; [auto|]. intros y x B Sx. specialize (Min y x B Sx). lia.
Qed.
Lemma drain_ok g root V h0 w p : explored g root h0 V -> In w V -> w <> root -> h_par h0 w = Some p -> forall l h, linked g V h0 h (pos V w) ->
  Forall (fun v => In v V /\ anc (h_par h0) w v /\ is_sdom (edge g) V p v) l ->
  exists h', foldM (settle (length (g_nodes g)) p) l h = Ok h' /\ idom_only l h h' /\ forall v, In v l -> exists d, h_idom h' v = Some d /\ settled (edge g) V (h_par h0) v d.
Proof.
  intros X Ww Nr Pw. induction l as [|v l IH]; intros h L F.
  { exists h. split; [auto|]. split; [repeat split|intros v []]. }
  inversion F as [|? ? (F1 & F2 & F3) F']; subst. destruct (settle_ok g root V h0 h w p v X L Ww Nr Pw F1 F2 F3) as (d & E & S). cbn [foldM]. rewrite E. cbn [bind].
  destruct (IH (set_idom h v (Some d)) L F') as (h' & E' & I & Q). exists h'. split; [auto|]. destruct I as (A1 & A2 & A3 & A4 & A5 & A6 & A7 & A8 & A9).
  split. { repeat split; auto. intros x N. rewrite A9 by (intros Y; apply N; right; auto). cbn [set_idom h_idom]. unfold upd. destruct (Z.eqb_spec x v) as [->|]; [exfalso; apply N; left; auto|auto]. }
  intros x [<-|I]; [|auto]. destruct (in_dec Z.eq_dec v l) as [Y|Y]; [auto|]. exists d. split; [|auto]. rewrite A9 by auto. cbn [set_idom h_idom]. unfold upd. now rewrite Z.eqb_refl.
Qed.

Lemma child_unique E root V par c w p : dtree E root V par -> In w V -> par c = Some p -> par w = Some p -> anc par c w -> c = w.
Proof.
  intros D Ww Pc Pw A. inversion A as [|? ? q Q1 Q2]; subst; [auto|]. assert (q = p) as -> by congruence. exfalso.
  assert (Pv : In p V) by (apply (anc_in _ _ _ _ p w D Ww); eapply anc_up; [eauto|constructor]).
  assert (Cv : In c V) by inV. pose proof (anc_le _ _ _ _ _ _ D Pv Q2). pose proof D as (_ & _ & Tr & R & _). assert (Nc : c <> root) by congruence. destruct (Tr c Cv Nc) as (q & P1 & _ & _ & P4). assert (q = p) as -> by congruence. lia.
Qed.
Lemma process_ok g root V h0 h w : explored g root h0 V -> stage g root V h0 h (S (pos V w)) -> In w V -> w <> root -> (forall v, edge g v w -> In v V) ->
  exists h', process (length (g_nodes g)) h w = Ok h' /\ stage g root V h0 h' (pos V w).
Proof.
  intros X (L & Hp & Hpr & Hsu & Hch & Hs & B & F & N) Ww Nr Pv. pose proof X as (W & D & Ip & Id & Io & Pp & Len). pose proof D as (_ & _ & Tr & R & _ & _ & Iv).
  destruct (Tr w Ww Nr) as (p & P1 & P2 & P3 & P4).
  destruct (preds_ok g root V h0 h w X L Ww Nr) as (h1 & E1 & So & Sd). { intros x Lx. apply Hs. right. lia. } { auto. }
  assert (Est : process (length (g_nodes g)) h w = let* h := foldM (see_pred (length (g_nodes g)) w) (h_pred h w) h in
    let h := set_bucket h (h_semi h w) (h_bucket h (h_semi h w) ++ [w]) in let h := set_anc h w (h_par h w) in
    match h_par h w with None => Err AttributeError | Some p => let* h := foldM (settle (length (g_nodes g)) p) (rev (h_bucket h p)) h in Ok (set_bucket h p []) end) by reflexivity.
  rewrite Est. clear Est. rewrite Hpr, Pp by auto. rewrite E1. cbn [bind]. cbv zeta.
  set (s := h_semi h1 w) in *. set (h2 := set_anc (set_bucket h1 s (h_bucket h1 s ++ [w])) w (h_par (set_bucket h1 s (h_bucket h1 s ++ [w])) w)).
  destruct So as (A1 & A2 & A3 & A4 & A5 & A6 & A7 & A8 & A9). destruct L as (Li & Ll & Lu).
  assert (Hw2 : h_par h2 w = Some p) by (change (h_par h2) with (h_par h1); congruence). rewrite Hw2.
  assert (Anc2 : forall x, h_anc h2 x = if x =? w then Some p else h_anc h x).
  { intros x. change (h_anc h2 x) with (upd (h_anc h1) w (h_par h1 w) x). unfold upd. rewrite A4, A2, Hp, P1. auto. }
  assert (Bk2 : forall x, h_bucket h2 x = if x =? s then h_bucket h s ++ [w] else h_bucket h x).
  { intros x. change (h_bucket h2 x) with (upd (h_bucket h1) s (h_bucket h1 s ++ [w]) x). unfold upd. now rewrite A5. }
  assert (L2 : linked g V h0 h2 (pos V w)).
  { split; [change (h_idx h2) with (h_idx h1); congruence|]. split.
    - intros x Xv Lx. rewrite Anc2. change (h_semi h2) with (h_semi h1). destruct (Z.eqb_spec x w) as [->|n]; [split; [auto|exact Sd]|]. rewrite A9 by auto. apply Ll; auto.
      assert (pos V x <> pos V w) by (intros Q; apply (pos_inj V) in Q; auto). lia.
    - intros x Q. rewrite Anc2. destruct (Z.eqb_spec x w) as [->|n]; [exfalso; destruct Q; [contradiction|lia]|]. apply Lu. destruct Q; [auto|right; lia]. }
  assert (Bp : Forall (fun v => In v V /\ anc (h_par h0) w v /\ is_sdom (edge g) V p v) (rev (h_bucket h2 p))).
  { apply Forall_rev, Forall_forall. intros v I. rewrite Bk2 in I.
    assert (Q : In v (h_bucket h p) \/ (v = w /\ p = s)). { destruct (Z.eqb_spec p s) as [->|n]; [|auto]. apply in_app_iff in I as [I|[<-|[]]]; auto. }
    destruct Q as [Q|[-> ->]]; [|split; [auto|]; split; [constructor|auto]].
    destruct (B p v Q) as (V1 & V2 & V3 & V4). split; [auto|]. split; [|auto]. destruct (sdom_anc _ root _ _ _ _ D V3) as [Q1 Q2]. destruct (toward _ _ _ _ _ _ D V1 Q1 Q2) as (c & C1 & C2).
    specialize (V4 c C1 C2). assert (Cv : In c V) by inV. assert (A : anc (h_par h0) c w) by (apply (Iv c w v); auto; lia). now rewrite <- (child_unique _ _ _ _ _ _ _ D Ww C1 P1 A). }
  destruct (drain_ok g root V h0 w p X Ww Nr P1 (rev (h_bucket h2 p)) h2 L2 Bp) as (h3 & E3 & (C1 & C2 & C3 & C4 & C5 & C6 & C7 & C8 & C9) & S3).
  rewrite E3. cbn [bind]. eexists. split; [reflexivity|].
  assert (Bk3 : forall x, h_bucket (set_bucket h3 p []) x = if x =? p then [] else h_bucket h2 x).
  { intros x. change (h_bucket (set_bucket h3 p []) x) with (upd (h_bucket h3) p [] x). unfold upd. now rewrite C5. }
  assert (Id3 : forall x, ~ In x (h_bucket h2 p) -> h_idom h3 x = h_idom h x). { intros x Nx. rewrite C9 by (rewrite <- in_rev; auto). change (h_idom h2) with (h_idom h1). now rewrite A3. }
  split; [|split; [|split; [|split; [|split; [|split; [|split; [|split]]]]]]].
  - destruct L2 as (Q1 & Q2 & Q3). split; [change (h_idx (set_bucket h3 p [])) with (h_idx h3); congruence|].
    change (h_anc (set_bucket h3 p [])) with (h_anc h3). change (h_semi (set_bucket h3 p [])) with (h_semi h3). rewrite C4, C3. auto.
  - change (h_par (set_bucket h3 p [])) with (h_par h3). change (h_par h2) with (h_par h1) in C2. congruence.
  - change (h_pred (set_bucket h3 p [])) with (h_pred h3). change (h_pred h2) with (h_pred h1) in C6. congruence.
  - change (h_succ (set_bucket h3 p [])) with (h_succ h3). change (h_succ h2) with (h_succ h1) in C7. congruence.
  - change (h_children (set_bucket h3 p [])) with (h_children h3). change (h_children h2) with (h_children h1) in C8. congruence.
  - intros x Q. change (h_semi (set_bucket h3 p [])) with (h_semi h3). rewrite C3. change (h_semi h2) with (h_semi h1). rewrite A9 by (intros ->; destruct Q; [contradiction|lia]). apply Hs. destruct Q; [auto|right; lia].
  - intros x v I. rewrite Bk3 in I. destruct (Z.eqb_spec x p) as [->|nx]; [destruct I|]. rewrite Bk2 in I.
    assert (Q : In v (h_bucket h x) \/ (v = w /\ x = s)). { destruct (Z.eqb_spec x s) as [->|n]; [|auto]. apply in_app_iff in I as [I|[<-|[]]]; auto. }
    destruct Q as [Q|[-> ->]].
    + destruct (B x v Q) as (V1 & V2 & V3 & V4). split; [auto|]. split; [lia|]. split; [auto|]. intros c K1 K2. specialize (V4 c K1 K2). assert (Cv : In c V) by inV.
      assert (pos V c <> pos V w); [|lia]. intros Q'. apply (pos_inj V) in Q'; auto. congruence.
    + split; [auto|]. split; [lia|]. split; [auto|]. intros c K1 K2. apply (anc_lt _ _ _ _ _ _ D Ww K2). congruence.
  - intros v Vv Lv. destruct (in_dec Z.eq_dec v (h_bucket h2 p)) as [Q|Q].
    { right. change (h_idom (set_bucket h3 p [])) with (h_idom h3). apply S3. now rewrite <- in_rev. }
    destruct (Z.eq_dec v w) as [->|n].
    { left. exists s. rewrite Bk3. destruct (Z.eqb_spec s p) as [E|E]; [|rewrite Bk2, Z.eqb_refl; apply in_app_iff; right; left; auto].
      exfalso. apply Q. rewrite Bk2. rewrite E, Z.eqb_refl. apply in_app_iff. right. left. auto. }
    destruct (F v Vv) as [(x & I)|(d & K1 & K2)].
    + assert (pos V v <> pos V w) by (intros Q'; apply (pos_inj V) in Q'; auto). lia.
    + left. exists x. assert (I2 : In v (h_bucket h2 x)) by (rewrite Bk2; destruct (Z.eqb_spec x s) as [->|]; [apply in_app_iff; auto|auto]).
      rewrite Bk3. destruct (Z.eqb_spec x p) as [->|]; [contradiction|auto].
    + right. exists d. change (h_idom (set_bucket h3 p [])) with (h_idom h3). rewrite Id3 by auto. auto.
  - intros x Q. change (h_idom (set_bucket h3 p [])) with (h_idom h3). rewrite Id3; [auto|]. intros I. rewrite Forall_forall in Bp. destruct (Bp x) as (K1 & K2 & K3); [now rewrite <- in_rev|].
    destruct Q as [Q|Q]; [auto|]. subst x. destruct K3 as (_ & _ & K3 & _). rewrite (root_pos _ _ _ _ D) in K3. lia.
Qed.
(** A predecessor that the root does not reach stops the algorithm. *)
Lemma process_bad g root V h0 h w : explored g root h0 V -> stage g root V h0 h (S (pos V w)) -> In w V -> w <> root -> (exists v, edge g v w /\ ~ In v V) ->
  process (length (g_nodes g)) h w = Err RuntimeError.
Proof.
  intros X St Ww Nr Ex. pose proof X as (W & D & Ip & Id & Io & Pp & Len). destruct St as (L & Hp & Hpr & Hsu & Hch & Hs & B & F & N). unfold process. rewrite Hpr, Pp by auto.
  assert (Split : exists l1 v l2, inc g w = l1 ++ v :: l2 /\ ~ In v V /\ Forall (fun z => ~ ~ In z V) l1).
  { destruct Ex as (v & Ev & Nv). apply (first_such (fun v => ~ In v V)); [intros z _; destruct (in_dec Z.eq_dec z V); tauto|]. exists v. split; [now apply edge_inc|auto]. }
  destruct Split as (l1 & v & l2 & Ei & Nv & Fl). rewrite Ei, foldM_app.
  assert (Fe : Forall (fun v => edge g v w /\ In v V) l1).
  { apply Forall_forall. intros z Iz. split; [apply edge_inc; [auto|]; rewrite Ei; apply in_app_iff; auto|]. rewrite Forall_forall in Fl. specialize (Fl z Iz). destruct (in_dec Z.eq_dec z V); tauto. }
  assert (Loop : forall rest done k, Forall (fun v => edge g v w /\ In v V) rest -> linked g V h0 k (S (pos V w)) -> (forall x, ~ In x V \/ (pos V x < pos V w)%nat -> h_semi k x = x) ->
    anc (h_par h0) (h_semi k w) w -> (h_semi k w = w \/ cand (edge g) V (h_par h0) w (h_semi k w)) ->
    (forall d y, In d done -> cand_from (edge g) V (h_par h0) w d y -> (pos V (h_semi k w) <= pos V y)%nat) ->
    exists k', foldM (see_pred (length (g_nodes g)) w) rest k = Ok k' /\ linked g V h0 k' (S (pos V w)) /\ (forall x, ~ In x V -> h_semi k' x = x)).
  { clear Fe Fl Ei. induction rest as [|z rest IH]; intros done k Fe Lk Sk Ak Ck Mk.
    { exists k. split; [auto|]. split; auto. }
    inversion Fe as [|? ? [Ev Vv] Fe']; subst. destruct (see_pred_ok g root V h0 k w z done X Lk Ww Nr) as (k1 & E1 & Sh & A1 & C1 & M1); auto.
    cbn [foldM]. rewrite E1. cbn [bind].
    assert (So : semi_only w k k1) by (destruct Sh as [->|(x & ->)]; [apply semi_only_refl|apply semi_only_set]).
    apply (IH (done ++ [z])); auto.
    - eapply semi_only_linked; eauto.
    - intros y Ly. destruct So as (_ & _ & _ & _ & _ & _ & _ & _ & So). rewrite So by (intros ->; destruct Ly; [contradiction|lia]). auto. }
  destruct (Loop l1 [] h Fe L) as (k & Ek & Lk & Sk).
  - intros x Q. apply Hs. destruct Q; [auto|right; lia].
  - rewrite Hs by (right; lia). constructor.
  - left. apply Hs. right. lia.
  - intros d y [].
  - rewrite Ek. cbn [bind foldM]. destruct Lk as (Li & _ & Lu). unfold see_pred. rewrite eval_unlinked by (apply Lu; auto). cbn [bind]. unfold semi_idx at 1. rewrite Sk, Li, Io by auto. reflexivity.
Qed.
