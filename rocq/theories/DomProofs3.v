(** The dominator tree: the two passes and the tree. *)
From Verif Require Import ListLemmas.
From Verif Require Export DomProofs2.
From Coq Require Import ZifyBool ZifyNat.

Lemma pos_mid V1 w V2 : NoDup (V1 ++ w :: V2) -> pos (V1 ++ w :: V2) w = length V1.
Proof.
  intros N. rewrite pos_app_r; [cbn [pos]; rewrite Z.eqb_refl; lia|]. apply NoDup_remove_2 in N. rewrite in_app_iff in N. auto.
Qed.
Lemma passes g root V h0 : explored g root h0 V -> forall A B h, V = root :: A ++ B -> stage g root V h0 h (S (length A)) ->
  ((forall v w, edge g v w -> In w A -> In v V) -> exists h', foldM (process (length (g_nodes g))) (rev A) h = Ok h' /\ stage g root V h0 h' 1) /\
  ((exists v w, edge g v w /\ In w A /\ ~ In v V) -> foldM (process (length (g_nodes g))) (rev A) h = Err RuntimeError).
Proof.
  intros X A. induction A as [|w A IH] using rev_ind; intros B h EV St.
  { split; [intros _; exists h; auto|intros (v & w & _ & [] & _)]. }
  rewrite rev_app_distr. cbn [rev app foldM]. rewrite app_length in St. cbn [length] in St. pose proof X as (W & D & _). pose proof D as (ND & _).
  assert (Pw : pos V w = S (length A)).
  { rewrite EV. rewrite <- app_assoc. cbn [app]. change (root :: A ++ w :: B) with ((root :: A) ++ w :: B). rewrite pos_mid; [auto|]. rewrite EV, <- app_assoc in ND. exact ND. }
  assert (Ww : In w V) by (rewrite EV, <- app_assoc; right; apply in_app_iff; right; left; auto).
  assert (Nr : w <> root) by (intros ->; rewrite (root_pos _ _ _ _ D) in Pw; discriminate).
  replace (S (length A + 1)) with (S (pos V w)) in St by lia.
  assert (EV' : V = root :: A ++ w :: B) by (rewrite EV, <- app_assoc; auto).
  split.
  - intros Good. destruct (process_ok g root V h0 h w X St Ww Nr) as (h1 & E1 & S1). { intros v Ev. apply (Good v w Ev). apply in_app_iff. right. left. auto. }
    rewrite E1. cbn [bind]. rewrite Pw in S1. apply (IH (w :: B) h1 EV' S1). intros v x Ev I. apply (Good v x Ev). apply in_app_iff. auto.
  - intros (v & x & Ev & I & Nv).
    assert (Dec : (forall v, edge g v w -> In v V) \/ exists v, edge g v w /\ ~ In v V).
    { destruct (Forall_Exists_dec (fun v => In v V) (fun v => in_dec Z.eq_dec v V) (inc g w)) as [Fa|Ex].
      - left. intros y Ey. rewrite Forall_forall in Fa. apply Fa. now apply edge_inc.
      - right. apply Exists_exists in Ex as (y & Y1 & Y2). exists y. split; [now apply edge_inc|auto]. }
    destruct Dec as [Good|Bad].
    + destruct (process_ok g root V h0 h w X St Ww Nr Good) as (h1 & E1 & S1). rewrite E1. cbn [bind]. rewrite Pw in S1. apply (IH (w :: B) h1 EV' S1).
      exists v, x. apply in_app_iff in I as [I|[->|[]]]; [auto|]. exfalso. auto.
    + now rewrite (process_bad g root V h0 h w X St Ww Nr Bad).
Qed.
Lemma stage_start g root V h : explored g root h V -> (forall x, h_semi h x = x) -> (forall x, h_idom h x = None) -> (forall x, h_anc h x = None) -> (forall x, h_bucket h x = []) ->
  stage g root V h h (length V).
Proof.
  intros X Hs Hi Ha Hb. split; [split; [auto|]; split; [|auto]; intros x Xv; apply pos_lt in Xv; lia|]. repeat (split; [now auto|]).
  split; [intros x v; rewrite Hb; intros []|]. split; [intros v Xv; apply pos_lt in Xv; lia|auto].
Qed.
Lemma stage_end g root V h0 h : explored g root h0 V -> stage g root V h0 h 1 -> all_sdom (edge g) root V (h_semi h) /\
  forall v, In v V -> v <> root -> exists d, h_idom h v = Some d /\ settled (edge g) V (h_par h0) v d.
Proof.
  intros X ((_ & L & _) & _ & _ & _ & _ & _ & B & F & _). pose proof X as (_ & D & _).
  assert (P1 : forall v, In v V -> v <> root -> (1 <= pos V v)%nat). { intros v Vv Nv. destruct (pos V v) eqn:Q; [|lia]. exfalso. apply Nv. eapply pos_root; eauto. }
  split; [intros w Ww Nw; apply L; auto|]. intros v Vv Nv. destruct (F v Vv (P1 v Vv Nv)) as [(x & I)|?]; [|auto]. exfalso. destruct (B x v I) as (_ & _ & S & H).
  destruct (sdom_anc _ root _ _ _ _ D S) as [Q1 Q2]. destruct (toward _ _ _ _ _ _ D Vv Q1 Q2) as (c & C1 & C2). specialize (H c C1 C2). assert (Cv : In c V) by inV.
  assert (c = root) as -> by (eapply pos_root; eauto; lia). destruct D as (_ & _ & _ & R & _). congruence.
Qed.
Lemma finish_ok g root V h0 : explored g root h0 V -> forall B A h, V = root :: A ++ B -> all_sdom (edge g) root V (h_semi h) ->
  (forall x, In x A -> exists d, h_idom h x = Some d /\ immediate (edge g) root d x) ->
  (forall x, In x B -> exists d, h_idom h x = Some d /\ settled (edge g) V (h_par h0) x d) ->
  exists h', foldM finish B h = Ok h' /\ idom_only B h h' /\ forall x, In x V -> x <> root -> exists d, h_idom h' x = Some d /\ immediate (edge g) root d x.
Proof.
  intros X. pose proof X as (W & D & _). pose proof D as (ND & _). induction B as [|w B IH]; intros A h EV Sd Ha Hb.
  { exists h. split; [auto|]. split; [repeat split|]. rewrite app_nil_r in EV. intros x Xv N. rewrite EV in Xv. destruct Xv as [->|Xv]; [contradiction|auto]. }
  assert (Ww : In w V) by (rewrite EV; right; apply in_app_iff; right; left; auto).
  assert (Pw : pos V w = S (length A)). { rewrite EV. change (root :: A ++ w :: B) with ((root :: A) ++ w :: B). rewrite pos_mid; [auto|]. rewrite EV in ND. exact ND. }
  assert (Nr : w <> root) by (intros ->; rewrite (root_pos _ _ _ _ D) in Pw; discriminate).
  assert (EV' : V = root :: (A ++ [w]) ++ B) by (rewrite <- app_assoc; exact EV).
  assert (NB : ~ In w B). { rewrite EV in ND. change (root :: A ++ w :: B) with ((root :: A) ++ w :: B) in ND. apply NoDup_remove_2 in ND. intros I. apply ND, in_app_iff. auto. }
  assert (NA : ~ In w A). { rewrite EV in ND. change (root :: A ++ w :: B) with ((root :: A) ++ w :: B) in ND. apply NoDup_remove_2 in ND. intros I. apply ND. right. apply in_app_iff. auto. }
  destruct (Hb w (or_introl eq_refl)) as (d & Ed & (s & Ss & Hd)). assert (s = h_semi h w) as -> by (eapply sdom_unique; [exact Ss|apply Sd; auto]).
  assert (K : exists h1, finish h w = Ok h1 /\ idom_only [w] h h1 /\ exists d', h_idom h1 w = Some d' /\ immediate (edge g) root d' w).
  { unfold finish. rewrite Ed. destruct Hd as [[-> H]|(sd & Q1 & (B1 & B2 & B3) & Q3 & Q4)].
    - rewrite Z.eqb_refl. exists h. split; [auto|]. split; [repeat split|]. exists (h_semi h w). split; [auto|]. apply (idom_semi _ _ V (h_par h0)); auto. intros u U1 U2 U3.
      assert (Uv : In u V) by inV. apply (H u); [split; auto|]. apply Sd; auto. intros ->. destruct Ss as (Sin & _). pose proof (anc_le _ _ _ _ _ _ D Uv U1) as Q. rewrite (root_pos _ _ _ _ D) in Q. apply U2. eapply pos_root; eauto. lia.
    - destruct (Z.eqb_spec d (h_semi h w)) as [->|_]; [congruence|]. assert (Dv : In d V) by inV.
      assert (Nd : d <> root). { intros ->. pose proof (anc_lt _ _ _ _ _ _ D Dv B1 B2) as Q. rewrite (root_pos _ _ _ _ D) in Q. lia. }
      assert (Ndw : d <> w). { intros ->. rewrite (sdom_unique _ _ _ _ _ Q1 Ss) in Q3. lia. }
      assert (sd = h_semi h d) as -> by (eapply sdom_unique; [exact Q1|apply Sd; auto]).
      assert (DA : In d A). { pose proof (anc_lt _ _ _ _ _ _ D Ww B3 Ndw) as Q. pose proof Dv as Dv'. rewrite EV in Dv'. destruct Dv' as [->|I]; [contradiction|]. apply in_app_iff in I as [I|[->|I]]; [auto|contradiction|]. exfalso.
        destruct (in_dec Z.eq_dec d A) as [Y|Y].
        - rewrite EV in ND. inversion ND as [|? ? _ ND']; subst. apply (nodup_app_disj _ _ ND' d Y). right. auto.
        - rewrite EV in Q at 1. change (root :: A ++ w :: B) with ((root :: A) ++ w :: B) in Q. rewrite pos_app_r, Pw in Q by (intros [Z|Z]; congruence). cbn [length] in Q. lia. }
      destruct (Ha d DA) as (d' & E1 & E2). exists (set_idom h w (h_idom h d)). split; [auto|]. split.
      { repeat split. intros x Nx. cbn [set_idom h_idom]. unfold upd. destruct (Z.eqb_spec x w) as [->|]; [exfalso; apply Nx; left; auto|auto]. }
      exists d'. split; [cbn [set_idom h_idom]; unfold upd; now rewrite Z.eqb_refl|].
      apply (idom_same (edge g) root V (h_par h0) (h_semi h) d w d'); auto. intros x X1 X2 X3. assert (Xv : In x V) by inV. apply (Q4 x); [split; auto|]. apply Sd; auto.
      intros ->. pose proof (anc_lt _ _ _ _ _ _ D Xv X1 X2) as Q. rewrite (root_pos _ _ _ _ D) in Q. lia. }
  destruct K as (h1 & E1 & (A1 & A2 & A3 & A4 & A5 & A6 & A7 & A8 & A9) & d' & Ed' & Imm). cbn [foldM]. rewrite E1. cbn [bind].
  assert (NV : forall x, x <> w -> h_idom h1 x = h_idom h x) by (intros x Nx; apply A9; intros [->|[]]; auto).
  destruct (IH (A ++ [w]) h1 EV') as (h2 & E2 & (C1 & C2 & C3 & C4 & C5 & C6 & C7 & C8 & C9) & R).
  - rewrite A3. auto.
  - intros x I. apply in_app_iff in I as [I|[<-|[]]]; [rewrite NV by (intros ->; auto); auto|eauto].
  - intros x I. rewrite NV by (intros ->; auto). apply Hb. right. auto.
  - exists h2. split; [auto|]. split; [|auto]. repeat split; try congruence. intros x Nx. rewrite C9 by (intros I; apply Nx; right; auto). apply NV. intros ->. apply Nx. left. auto.
Qed.

(** The tree. *)
Lemma add_nodes_ok : forall l g, wf g -> NoDup (g_nodes g ++ l) -> exists g', foldM add_node l g = Ok g' /\ wf g' /\ g_nodes g' = g_nodes g ++ l /\ forall u, nb g' u = nb g u.
Proof.
  induction l as [|n l IH]; intros g W N; [exists g; rewrite app_nil_r; auto|].
  assert (Nn : ~ node g n). { apply NoDup_remove_2 in N. unfold node. rewrite in_app_iff in N. auto. }
  destruct (add_node_ok g n W Nn) as (g1 & E1 & W1 & N1 & B1 & _). cbn [foldM]. rewrite E1. cbn [bind]. destruct (IH g1 W1) as (g2 & E2 & W2 & N2 & B2).
  { rewrite N1, <- app_assoc. exact N. } exists g2. split; [auto|]. split; [auto|]. split; [rewrite N2, N1, <- app_assoc; auto|]. intros u. rewrite B2. auto.
Qed.
Lemma tree_ok (nodes : list Z) (idom : Z -> option Z) : (forall n d, In n nodes -> idom n = Some d -> In d nodes) ->
  forall l done h t, nodes = done ++ l -> h_idom h = idom -> wf t -> g_nodes t = nodes ->
  (forall d n, edge t d n <-> In n done /\ idom n = Some d) -> (forall d n, In n (h_children h d) <-> In n done /\ idom n = Some d) -> (forall d, NoDup (h_children h d)) ->
  exists h' t', foldM add_to_tree l (h, t) = Ok (h', t') /\ h_idom h' = idom /\ h_pred h' = h_pred h /\ h_succ h' = h_succ h /\ wf t' /\ g_nodes t' = nodes /\
    (forall d n, edge t' d n <-> In n nodes /\ idom n = Some d) /\ (forall d n, In n (h_children h' d) <-> In n nodes /\ idom n = Some d) /\ (forall d, NoDup (h_children h' d)).
Proof.
  intros Cl. induction l as [|n l IH]; intros done h t En Ei W Nt Te Tc Nd.
  { exists h, t. rewrite app_nil_r in En. subst done. auto 10. }
  assert (En' : nodes = (done ++ [n]) ++ l) by (rewrite <- app_assoc; exact En). assert (Nn : In n nodes) by (rewrite En; apply in_app_iff; right; left; auto).
  cbn [foldM]. destruct (idom n) as [d|] eqn:Ed.
  - assert (Dn : In d nodes) by eauto.
    set (h1 := if zmem n (h_children h d) then h else set_children h d (h_children h d ++ [n])).
    assert (H1 : h_idom h1 = idom /\ h_pred h1 = h_pred h /\ h_succ h1 = h_succ h) by (unfold h1; destruct (zmem n (h_children h d)); auto).
    assert (Tc1 : forall d0 x, In x (h_children h1 d0) <-> In x (done ++ [n]) /\ idom x = Some d0).
    { intros d0 x. unfold h1. destruct (zmem n (h_children h d)) eqn:Zm.
      - rewrite Tc, in_app_iff. cbn [In]. apply zmem_in in Zm. apply Tc in Zm as [Z1 Z2]. split; [intros []; auto|]. intros [[Q|[<-|[]]] Q2]; auto.
      - cbn [set_children h_children]. unfold upd. destruct (Z.eqb_spec d0 d) as [->|Nd0].
        + rewrite !in_app_iff, Tc. cbn [In]. split; [intros [[]|[<-|[]]]; auto|]. intros [[Q|[<-|[]]] Q2]; auto.
        + rewrite Tc, in_app_iff. cbn [In]. split; [intros []; auto|]. intros [[Q|[<-|[]]] Q2]; [auto|congruence]. }
    assert (Nd1 : forall d0, NoDup (h_children h1 d0)).
    { intros d0. unfold h1. destruct (zmem n (h_children h d)) eqn:Zm; [auto|]. cbn [set_children h_children]. unfold upd. destruct (d0 =? d); [|auto]. apply nodup_snoc; [auto|]. now apply zmem_notin. }
    assert (T1 : exists t1, (if has_edge t d n then Ok t else add_edge t d n) = Ok t1 /\ wf t1 /\ g_nodes t1 = nodes /\ forall d0 x, edge t1 d0 x <-> In x (done ++ [n]) /\ idom x = Some d0).
    { destruct (has_edge t d n) eqn:He.
      - exists t. split; [auto|]. split; [auto|]. split; [auto|]. intros d0 x. rewrite Te, in_app_iff. cbn [In]. apply has_edge_iff in He. apply Te in He as [Z1 Z2]. split; [intros []; auto|]. intros [[Q|[<-|[]]] Q2]; auto.
      - apply has_edge_false in He. destruct (add_edge_ok t d n W) as (t1 & E1 & W1 & N1 & B1 & _); [unfold node; now rewrite Nt|unfold node; now rewrite Nt|auto|]. exists t1. split; [auto|]. split; [auto|]. split; [congruence|].
        intros d0 x. rewrite (add_edge_edge t t1 d n B1), Te, in_app_iff. cbn [In]. split; [intros [[]|[-> ->]]; auto|]. intros [[Q|[<-|[]]] Q2]; [auto|]. right. split; [congruence|auto]. }
    destruct T1 as (t1 & E1 & W1 & N1 & Te1). assert (Ea : add_to_tree (h, t) n = Ok (h1, t1)) by (unfold add_to_tree; rewrite Ei, Ed; fold h1; rewrite E1; reflexivity). rewrite Ea. cbn [bind].
    destruct H1 as (H1 & H2 & H3). destruct (IH (done ++ [n]) h1 t1 En' H1 W1 N1 Te1 Tc1 Nd1) as (h' & t' & R1 & R2 & R3 & R4 & R5). exists h', t'. split; [auto|]. split; [auto|]. split; [congruence|]. split; [congruence|auto].
  - assert (Ea : add_to_tree (h, t) n = Ok (h, t)) by (unfold add_to_tree; rewrite Ei, Ed; reflexivity). rewrite Ea. cbn [bind]. apply (IH (done ++ [n])); auto.
    + intros d x. rewrite Te, in_app_iff. cbn [In]. split; [intros []; auto|]. intros [[Q|[<-|[]]] Q2]; [auto|congruence].
    + intros d x. rewrite Tc, in_app_iff. cbn [In]. split; [intros []; auto|]. intros [[Q|[<-|[]]] Q2]; [auto|congruence].
Qed.

(** Reachability and uniqueness. *)
Lemma reach_in E root V par x : dtree E root V par -> (In x V <-> reachable E root x).
Proof.
  intros D. split.
  - intros Xv. destruct (Z.eq_dec x root) as [->|n]; [left; auto|]. right. destruct (tree_walk E root V par root x D Xv (anc_root _ _ _ _ _ D Xv)) as (l & L & _); [auto|]. exists l. auto.
  - intros [->|(l & P)]; [eapply root_in; eauto|]. eapply walk_in; eauto. eapply root_in; eauto.
Qed.
Lemma way_cut R u l v x : way R u l v -> In x l -> exists l', way R u l' x /\ (length l' <= length l)%nat /\ (x <> v -> (length l' < length l)%nat).
Proof.
  intros P. induction P as [u|u w l v E P IH]; intros I.
  - destruct I as [->|[]]. exists [x]. split; [constructor|]. split; [auto|congruence].
  - destruct I as [->|I].
    + exists [x]. split; [constructor|]. cbn [length]. assert (1 <= length l)%nat by (inversion P; cbn [length]; lia). split; lia.
    + destruct (IH I) as (l' & P' & L1 & L2). exists (u :: l'). split; [econstructor; eauto|]. cbn [length]. split; [lia|]. intros N. specialize (L2 N). lia.
Qed.
Lemma reachable_way R root v : reachable R root v <-> exists l, way R root l v.
Proof.
  split.
  - intros [->|(l & P)]; [exists [root]; constructor|]. eexists. eapply walk_way; eauto.
  - intros (l & P). destruct (way_cases _ _ _ _ P) as [[_ ->]|(m & M & _)]; [left; auto|right; exists m; auto].
Qed.
Lemma no_mutual R root d d' : d <> d' -> dominates R root d d' -> dominates R root d' d -> ~ reachable R root d.
Proof.
  intros N A B. rewrite reachable_way. intros (l & P). remember (length l) as n. revert l P Heqn. induction n as [n IH] using lt_wf_ind. intros l P ->.
  destruct (way_cut _ _ _ _ d' P (B l P)) as (l1 & P1 & _ & L1). specialize (L1 (not_eq_sym N)). destruct (way_cut _ _ _ _ d P1 (A l1 P1)) as (l2 & P2 & _ & L2). specialize (L2 N). eapply (IH (length l2)); eauto. lia.
Qed.
Lemma dominator_reachable R root d v : reachable R root v -> dominates R root d v -> reachable R root d.
Proof. rewrite !reachable_way. intros (l & P) Dm. destruct (way_cut _ _ _ _ d P (Dm l P)) as (l' & P' & _). eauto. Qed.
Lemma immediate_unique R root d d' v : reachable R root v -> immediate R root d v -> immediate R root d' v -> d = d'.
Proof.
  intros Rv [A1 A2] [B1 B2]. destruct (Z.eq_dec d d') as [|N]; [auto|]. exfalso. apply (no_mutual R root d d' N); auto. eapply dominator_reachable; eauto. apply A1.
Qed.

Definition no_stray (R : rel) (root : Z) : Prop := forall v w, R v w -> reachable R root w -> w <> root -> reachable R root v.
Lemma build_ok g root : wf g -> node g root -> no_stray (edge g) root -> exists h t, build_dominator_tree g root = Ok (h, t) /\
  (forall v d, h_idom h v = Some d <-> reachable (edge g) root v /\ immediate (edge g) root d v) /\
  (forall v, reachable (edge g) root v -> v <> root -> exists d, h_idom h v = Some d) /\
  wf t /\ g_nodes t = g_nodes g /\ (forall d v, edge t d v <-> h_idom h v = Some d) /\ (forall d v, In v (h_children h d) <-> h_idom h v = Some d) /\ (forall d, NoDup (h_children h d)) /\
  (forall v, reachable (edge g) root v -> h_pred h v = inc g v /\ h_succ h v = nb g v) /\ (forall v, ~ reachable (edge g) root v -> h_pred h v = [] /\ h_succ h v = []).
Proof.
  intros W Nr St. destruct (dfs_explored g root W Nr) as (h0 & V & E0 & X & Hs & Hi & Ha & Hb & Hc & Hsu & Hout & IncV). pose proof X as (_ & D & Ip & Id & Io & Pp & Len). pose proof D as (ND & (V' & EV) & _).
  pose proof (fun x => reach_in _ _ _ _ x D) as Rx.
  assert (St0 : stage g root V h0 h0 (S (length V'))) by (replace (S (length V')) with (length V) by (rewrite EV; auto); apply stage_start; auto).
  assert (EV0 : V = root :: V' ++ []) by (rewrite app_nil_r; auto).
  assert (Est : build_dominator_tree g root = let* r := dfs (length (g_nodes g)) g fresh_heap [] root 0 in let '(h, _, vertex) := r in
    let* h := foldM (process (length (g_nodes g))) (rev (tl vertex)) h in let* h := foldM finish (tl vertex) h in
    let h := match vertex with v0 :: _ => set_idom h v0 None | [] => h end in let* tree := foldM add_node (g_nodes g) g_empty in foldM add_to_tree (g_nodes g) (h, tree)) by reflexivity.
  rewrite Est, E0. clear Est. cbn [bind]. replace (tl V) with V' by (rewrite EV; auto).
  destruct (proj1 (passes g root V h0 X V' [] h0 EV0 St0)) as (h1 & E1 & S1).
  { intros v w Ev Iw. apply Rx. apply (St v w Ev); [apply Rx; rewrite EV; right; auto|]. intros ->. rewrite EV in ND. inversion ND; auto. }
  rewrite E1. cbn [bind]. destruct (stage_end g root V h0 h1 X S1) as [Sd Se].
  destruct (finish_ok g root V h0 X V' [] h1 EV Sd) as (h2 & E2 & (C1 & C2 & C3 & C4 & C5 & C6 & C7 & C8 & C9) & R2).
  { intros x []. } { intros x I. apply Se; [rewrite EV; right; auto|]. intros ->. rewrite EV in ND. inversion ND; auto. }
  rewrite E2. cbn [bind]. replace (match V with [] => h2 | v0 :: _ => set_idom h2 v0 None end) with (set_idom h2 root None) by (rewrite EV; auto).
  set (h3 := set_idom h2 root None). destruct (add_nodes_ok (g_nodes g) g_empty wf_empty) as (t0 & Et & Wt & Nt & Bt). { cbn. apply W. }
  rewrite Et. cbn [bind]. destruct S1 as (_ & _ & K2 & K3 & K4 & _ & _ & _ & K8).
  assert (Idn : forall x, ~ In x V \/ x = root -> h_idom h3 x = None).
  { intros x Q. cbn [h3 set_idom h_idom]. unfold upd. destruct (Z.eqb_spec x root) as [->|n]; [auto|]. rewrite C9; [auto|]. intros I. destruct Q as [Q|Q]; [|auto]. apply Q. rewrite EV. right. auto. }
  assert (Ids : forall x, In x V -> x <> root -> exists d, h_idom h3 x = Some d /\ immediate (edge g) root d x).
  { intros x Xv Nx. cbn [h3 set_idom h_idom]. unfold upd. destruct (Z.eqb_spec x root) as [->|n]; [contradiction|]. auto. }
  assert (Idv : forall x d, h_idom h3 x = Some d -> In x V /\ x <> root /\ immediate (edge g) root d x).
  { intros x d Q. destruct (in_dec Z.eq_dec x V) as [Y|Y]; [|rewrite Idn in Q by auto; discriminate]. destruct (Z.eq_dec x root) as [->|n]; [rewrite Idn in Q by auto; discriminate|].
    destruct (Ids x Y n) as (d' & Q1 & Q2). assert (d' = d) as -> by congruence. auto. }
  destruct (tree_ok (g_nodes g) (h_idom h3)) with (l := g_nodes g) (done := @nil Z) (h := h3) (t := t0) as (h4 & t4 & E4 & F1 & F2 & F3 & F4 & F5 & F6 & F7 & F8); auto.
  { intros n d Nn Q. destruct (Idv n d Q) as (Q1 & Q2 & [Q3 _]). apply IncV. apply Rx. eapply dominator_reachable; [|apply Q3]. now apply Rx. }
  { intros d n. unfold edge. rewrite Bt. cbn. tauto. }
  { intros d n. change (h_children h3) with (h_children h2). rewrite C8, K4, Hc. cbn. tauto. }
  { intros d. change (h_children h3) with (h_children h2). rewrite C8, K4, Hc. constructor. }
  exists h4, t4. split; [auto|]. rewrite F1. split; [|split; [|split; [auto|split; [auto|]]]].
  - intros v d. split; [intros Q; destruct (Idv v d Q) as (Q1 & Q2 & Q3); split; [now apply Rx|auto]|]. intros [Q1 Q2].
    assert (Nv : v <> root). { intros ->. destruct Q2 as [[Q2 Q3] _]. apply Q2. now apply dominates_root in Q3. }
    destruct (Ids v (proj2 (Rx v) Q1) Nv) as (d' & Q3 & Q4). now rewrite (immediate_unique _ _ _ _ _ Q1 Q2 Q4).
  - intros v Rv Nv. destruct (Ids v (proj2 (Rx v) Rv) Nv) as (d & Q & _). eauto.
  - assert (Nin : forall v d, h_idom h3 v = Some d -> In v (g_nodes g)) by (intros v d Q; apply IncV; exact (proj1 (Idv v d Q))).
    split; [intros d v; rewrite F6; split; [intros []; auto|intros Q; split; eauto]|]. split; [intros d v; rewrite F7; split; [intros []; auto|intros Q; split; eauto]|]. split; [auto|].
    rewrite F2, F3. change (h_pred h3) with (h_pred h2). change (h_succ h3) with (h_succ h2). rewrite C6, C7, K2, K3. split.
    + intros v Rv. apply Rx in Rv. split; [apply Pp; auto|apply Hsu; auto].
    + intros v Rv. apply Hout. intros Q. apply Rv. now apply Rx.
Qed.
Lemma build_bad g root : wf g -> node g root -> (exists v w, edge g v w /\ reachable (edge g) root w /\ w <> root /\ ~ reachable (edge g) root v) -> build_dominator_tree g root = Err RuntimeError.
Proof.
  intros W Nr (v & w & Ev & Rw & Nw & Nv). destruct (dfs_explored g root W Nr) as (h0 & V & E0 & X & Hs & Hi & Ha & Hb & Hc & Hsu & Hout & IncV). pose proof X as (_ & D & Ip & Id & Io & Pp & Len). pose proof D as (ND & (V' & EV) & _).
  pose proof (fun x => reach_in _ _ _ _ x D) as Rx.
  assert (St0 : stage g root V h0 h0 (S (length V'))) by (replace (S (length V')) with (length V) by (rewrite EV; auto); apply stage_start; auto).
  assert (EV0 : V = root :: V' ++ []) by (rewrite app_nil_r; auto).
  unfold build_dominator_tree. cbv zeta. rewrite E0. cbn [bind]. replace (tl V) with V' by (rewrite EV; auto).
  rewrite (proj2 (passes g root V h0 X V' [] h0 EV0 St0)); [reflexivity|]. exists v, w. split; [auto|]. split; [|now rewrite Rx]. apply Rx in Rw. rewrite EV in Rw. destruct Rw as [->|?]; [contradiction|auto].
Qed.
