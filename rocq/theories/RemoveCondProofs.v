(** Proofs about removing the conditional nodes of a control flow graph. *)
From Verif Require Import ListLemmas.
From Verif Require Export CfgModel GraphProofs.
From Coq Require Import ZifyBool ZifyNat.

Lemma add_missing g p s : wf g -> node g p -> node g s -> exists g', (if has_edge g p s then Ok g else add_edge g p s) = Ok g' /\ wf g' /\ g_nodes g' = g_nodes g /\
  forall x y, edge g' x y <-> edge g x y \/ (x = p /\ y = s).
Proof.
  intros W P S. destruct (has_edge g p s) eqn:H.
  - apply has_edge_iff in H. exists g. repeat split; try apply W; auto. intros [E|[-> ->]]; auto.
  - apply has_edge_false in H. destruct (add_edge_ok g p s W P S H) as (g' & E & W' & N & A & _). exists g'. split; [auto|]. split; [auto|]. split; [auto|]. now apply add_edge_edge.
Qed.
Lemma add_all p ss : forall g, wf g -> node g p -> Forall (node g) ss ->
  exists g', foldM (fun g s => if has_edge g p s then Ok g else add_edge g p s) ss g = Ok g' /\ wf g' /\ g_nodes g' = g_nodes g /\
  forall x y, edge g' x y <-> edge g x y \/ (x = p /\ In y ss).
Proof.
  induction ss as [|s ss IH]; intros g W P F; [exists g; split; [reflexivity|]; split; [auto|]; split; [auto|]; cbn; intuition|].
  inversion F as [|? ? F1 F2]; subst. destruct (add_missing g p s W P F1) as (g1 & E1 & W1 & N1 & H1). cbn [foldM]. rewrite E1. cbn [bind].
  destruct (IH g1 W1) as (g' & E & W' & N & H); [unfold node; rewrite N1; auto|eapply Forall_impl; [|exact F2]; unfold node; rewrite N1; auto|].
  exists g'. split; [auto|]. split; [auto|]. split; [congruence|]. intros x y. rewrite H, H1. cbn [In]. intuition congruence.
Qed.
Lemma bypass_ok g n : wf g -> node g n -> exists g', bypass g n = Ok g' /\ wf g' /\ g_nodes g' = g_nodes g /\
  forall x y, edge g' x y <-> edge g x y \/ (edge g x n /\ edge g n y).
Proof.
  intros W N. unfold bypass. rewrite incidents_ok by auto. cbn [bind].
  assert (G : forall ps done g1, wf g1 -> g_nodes g1 = g_nodes g -> Forall (node g) ps ->
    (forall x y, edge g1 x y <-> edge g x y \/ (In x done /\ edge g n y)) ->
    exists g', foldM (fun g p => let* ss := neighbors g n in foldM (fun g s => if has_edge g p s then Ok g else add_edge g p s) ss g) ps g1 = Ok g' /\ wf g' /\ g_nodes g' = g_nodes g /\
      forall x y, edge g' x y <-> edge g x y \/ (In x (done ++ ps) /\ edge g n y)).
  { induction ps as [|p ps IH]; intros done g1 W1 N1 F H1; [exists g1; rewrite app_nil_r; auto|].
    inversion F as [|? ? F1 F2]; subst. cbn [foldM]. rewrite neighbors_ok by (unfold node; rewrite N1; auto). cbn [bind].
    destruct (add_all p (nb g1 n) g1 W1) as (g2 & E2 & W2 & N2 & H2); [unfold node; rewrite N1; auto| |].
    { apply Forall_forall. intros s I. eapply edge_nodes; eauto. }
    rewrite E2. cbn [bind]. destruct (IH (done ++ [p]) g2 W2 ltac:(congruence) F2) as (g' & E & W' & N' & H).
    { intros x y. rewrite H2. change (In y (nb g1 n)) with (edge g1 n y). rewrite !H1, in_app_iff. cbn [In]. intuition congruence. }
    exists g'. split; [auto|]. split; [auto|]. split; [auto|]. intros x y. rewrite H. now rewrite <- app_assoc. }
  destruct (G (inc g n) [] g W eq_refl) as (g' & E & W' & N' & H).
  { apply Forall_forall. intros p I. destruct W as (W1 & W2 & W3 & W4 & W5 & W6). apply W3 in I. eapply nb_node; eauto. }
  { intros x y. cbn. intuition. }
  exists g'. split; [auto|]. split; [auto|]. split; [auto|]. intros x y. rewrite H. cbn [app]. destruct W as (W1 & W2 & W3 & W4 & W5 & W6). now rewrite <- W3.
Qed.

(** Paths whose inner nodes satisfy [P]. *)
Definition through (R : rel) (P : Z -> Prop) : rel := fun u v => exists l, walk R u l v /\ Forall P l.
Lemma through_add R (P : Z -> Prop) n u v : through R (fun x => P x \/ x = n) u v <-> through R P u v \/ (through R P u n /\ through R P n v).
Proof.
  split.
  - intros (l & W & F). induction W as [u v E|u w l v E W IH].
    + left. exists []. split; [now constructor|constructor].
    + inversion F as [|? ? F1 F2]; subst. specialize (IH F2). destruct F1 as [F1| ->].
      * destruct IH as [(m & A & B)|[(m & A & B) C]]; [left|right; split; [|auto]]; exists (w :: m); (split; [now constructor|now constructor]).
      * right. split; [exists []; split; [now constructor|constructor]|]. destruct IH as [C|[_ C]]; auto.
  - intros [(l & W & F)|[(l & W & F) (m & W' & F')]].
    + exists l. split; [auto|]. eapply Forall_impl; [|exact F]; cbn; auto.
    + exists (l ++ n :: m). split; [now apply walk_app|]. apply Forall_app; split; [eapply Forall_impl; [|exact F]; cbn; auto|]. constructor; [auto|]. eapply Forall_impl; [|exact F']; cbn; auto.
Qed.
Lemma bypass_all (c : Z -> bool) g ns : wf g -> Forall (node g) ns -> exists g', 
  foldM (fun (s : digraph * list Z) n => let '(g, rem) := s in if c n then let* g := bypass g n in Ok (g, rem ++ [n]) else Ok s) ns (g, []) = Ok (g', filter c ns) /\
  wf g' /\ g_nodes g' = g_nodes g /\ forall x y, edge g' x y <-> through (edge g) (fun z => In z (filter c ns)) x y.
Proof.
  intros W F. induction ns as [|n ns IH] using rev_ind.
  - exists g. split; [reflexivity|]. split; [auto|]. split; [auto|]. intros x y. split; [intros E; exists []; split; [now constructor|constructor]|].
    intros (l & Wk & Fl). destruct Wk as [|u w l v E _]; [auto|]. inversion Fl as [|? ? []].
  - apply Forall_app in F as [F1 F2]. inversion F2 as [|? ? F3 _]; subst. destruct (IH F1) as (g1 & E1 & W1 & N1 & H1). rewrite foldM_app, E1. cbn [bind foldM].
    rewrite filter_app. cbn [filter]. destruct (c n) eqn:Cn.
    + destruct (bypass_ok g1 n W1) as (g2 & E2 & W2 & N2 & H2); [unfold node; rewrite N1; auto|]. rewrite E2. cbn [bind]. exists g2. split; [reflexivity|]. split; [auto|]. split; [congruence|].
      intros x y. rewrite H2, !H1, <- through_add. split; intros (l & A & B); exists l; (split; [auto|]); (eapply Forall_impl; [|exact B]); cbn; intros z; rewrite in_app_iff; cbn [In]; intuition.
    + exists g1. rewrite app_nil_r. auto.
Qed.

(** ** Deleting nodes *)
Lemma del_ins n ins : forall g, wf g -> NoDup ins -> (forall u, In u ins -> edge g u n) -> exists g', foldM (fun g u => del_edge g u n) ins g = Ok g' /\ wf g' /\ g_nodes g' = g_nodes g /\
  forall x y, edge g' x y <-> edge g x y /\ ~ (In x ins /\ y = n).
Proof.
  induction ins as [|u ins IH]; intros g W Nd H; [exists g; split; [reflexivity|]; split; [auto|]; split; [auto|]; cbn; intuition|].
  apply NoDup_cons_iff in Nd as [Nu Nd]. destruct (del_edge_ok g u n W (H u (or_introl eq_refl))) as (g1 & E1 & W1 & N1 & H1). cbn [foldM]. rewrite E1. cbn [bind].
  destruct (IH g1 W1 Nd) as (g' & E & W' & N & H').
  { intros v I. apply H1. split; [apply H; right; auto|]. intros [-> _]; auto. }
  exists g'. split; [auto|]. split; [auto|]. split; [congruence|]. intros x y. rewrite H', H1. cbn [In]. split; [intros [[A B] C]; split; [auto|]; intros [[D|D] F]; [apply B; auto|apply C; auto]|intros [A B]; split; [split; [auto|]|]; intros [D F]; apply B; auto].
Qed.
Lemma del_outs n outs : forall g, wf g -> NoDup outs -> (forall u, In u outs -> edge g n u) -> exists g', foldM (fun g u => del_edge g n u) outs g = Ok g' /\ wf g' /\ g_nodes g' = g_nodes g /\
  forall x y, edge g' x y <-> edge g x y /\ ~ (In y outs /\ x = n).
Proof.
  induction outs as [|u ins IH]; intros g W Nd H; [exists g; split; [reflexivity|]; split; [auto|]; split; [auto|]; cbn; intuition|].
  apply NoDup_cons_iff in Nd as [Nu Nd]. destruct (del_edge_ok g n u W (H u (or_introl eq_refl))) as (g1 & E1 & W1 & N1 & H1). cbn [foldM]. rewrite E1. cbn [bind].
  destruct (IH g1 W1 Nd) as (g' & E & W' & N & H').
  { intros v I. apply H1. split; [apply H; right; auto|]. intros [_ ->]; auto. }
  exists g'. split; [auto|]. split; [auto|]. split; [congruence|]. intros x y. rewrite H', H1. cbn [In]. split; [intros [[A B] C]; split; [auto|]; intros [[D|D] F]; [apply B; auto|apply C; auto]|intros [A B]; split; [split; [auto|]|]; intros [D F]; apply B; auto].
Qed.
Lemma dget_ddel {A} (d : dict A) k x : dget (ddel d k) x = if x =? k then None else dget d x.
Proof.
  induction d as [|[k' a] d IH]; [cbn; now destruct (x =? k)|]. unfold ddel in *. cbn [filter fst]. destruct (Z.eqb_spec k' k) as [E|n]; cbn [negb].
  - rewrite IH. cbn [dget]. destruct (Z.eqb_spec x k) as [X|X]; [reflexivity|]. destruct (Z.eqb_spec x k') as [Y|]; [congruence|reflexivity].
  - cbn [dget]. rewrite IH. destruct (Z.eqb_spec x k') as [Y|]; [destruct (Z.eqb_spec x k) as [X|]; [congruence|reflexivity]|reflexivity].
Qed.
Lemma dkeys_ddel {A} (d : dict A) k : dkeys (ddel d k) = filter (fun x => negb (x =? k)) (dkeys d).
Proof. unfold dkeys, ddel. induction d as [|[k' a] d IH]; [reflexivity|]. cbn [filter map fst]. destruct (negb (k' =? k)); cbn [map fst]; congruence. Qed.
Lemma del_node_ok g n : wf g -> node g n -> exists g', del_node g n = Ok g' /\ wf g' /\ g_nodes g' = filter (fun x => negb (x =? n)) (g_nodes g) /\
  forall x y, edge g' x y <-> edge g x y /\ x <> n /\ y <> n.
Proof.
  intros W N. unfold del_node. rewrite incidents_ok by auto. cbn [bind].
  assert (Hi : forall u, In u (inc g n) <-> edge g u n) by (intros u; symmetry; apply W).
  destruct (del_ins n (inc g n) g W) as (g1 & E1 & W1 & N1 & H1); [apply W|intros u; apply Hi|]. rewrite E1. cbn [bind].
  rewrite neighbors_ok by (unfold node; rewrite N1; auto). cbn [bind].
  destruct (del_outs n (nb g1 n) g1 W1) as (g2 & E2 & W2 & N2 & H2); [apply W1|auto|]. rewrite E2. cbn [bind].
  assert (H : forall x y, edge g2 x y <-> edge g x y /\ x <> n /\ y <> n).
  { intros x y. rewrite H2. change (In y (nb g1 n)) with (edge g1 n y). rewrite !H1, !Hi. split.
    - intros [[A B] C]. split; [auto|]. split; [intros ->; apply C; split; [split; auto|auto]|intros ->; apply B; auto].
    - intros (A & B & C). split; [split; [auto|]|]; intros [D E]; congruence. }
  eexists. split; [reflexivity|]. set (g3 := Digraph _ _).
  assert (A : forall x, nb g3 x = if x =? n then [] else nb g2 x) by (intros x; unfold nb at 1; cbn [g3 node_neighbors]; rewrite dget_ddel; now destruct (x =? n)).
  assert (B : forall x, inc g3 x = if x =? n then [] else inc g2 x) by (intros x; unfold inc at 1; cbn [g3 node_incidence]; rewrite dget_ddel; now destruct (x =? n)).
  assert (C : g_nodes g3 = filter (fun x => negb (x =? n)) (g_nodes g)) by (unfold g_nodes at 1; cbn [g3 node_neighbors]; rewrite dkeys_ddel; f_equal; fold (g_nodes g2); congruence).
  assert (D : forall x y, edge g3 x y <-> edge g x y /\ x <> n /\ y <> n).
  { intros x y. unfold edge. rewrite A. destruct (Z.eqb_spec x n) as [X|X]; [cbn; intuition|]. apply H. }
  split; [|auto]. pose proof W2 as (V1 & V2 & V3 & V4 & V5 & V6). unfold wf. rewrite C.
  split; [apply NoDup_filter, W|]. split; [cbn [g3 node_incidence]; rewrite dkeys_ddel, V2, N2, N1; reflexivity|].
  split.
  { intros x y. change (In y (nb g3 x)) with (edge g3 x y). rewrite D, B. destruct (Z.eqb_spec y n) as [Y|Y]; [cbn; intuition|]. rewrite <- V3. change (In y (nb g2 x)) with (edge g2 x y). rewrite H. reflexivity. }
  split; [intros x; rewrite A; destruct (x =? n); [constructor|auto]|]. split; [intros x; rewrite B; destruct (x =? n); [constructor|auto]|].
  intros x y I. change (In y (nb g3 x)) with (edge g3 x y) in I. apply D in I as (I & J & K). unfold node. rewrite C. apply filter_In. split; [|lia]. eapply edge_nodes; eauto.
Qed.
Lemma del_nodes ns : forall g, wf g -> NoDup ns -> Forall (node g) ns -> exists g', foldM del_node ns g = Ok g' /\ wf g' /\
  (forall x, node g' x <-> node g x /\ ~ In x ns) /\ forall x y, edge g' x y <-> edge g x y /\ ~ In x ns /\ ~ In y ns.
Proof.
  induction ns as [|n ns IH]; intros g W Nd F; [exists g; split; [reflexivity|]; split; [auto|]; cbn; intuition|].
  apply NoDup_cons_iff in Nd as [Nn Nd]. inversion F as [|? ? F1 F2]; subst. destruct (del_node_ok g n W F1) as (g1 & E1 & W1 & N1 & H1). cbn [foldM]. rewrite E1. cbn [bind].
  assert (N1' : forall x, node g1 x <-> node g x /\ x <> n) by (intros x; unfold node; rewrite N1, filter_In; intuition lia).
  destruct (IH g1 W1 Nd) as (g' & E & W' & N & H); [apply Forall_forall; intros x I; apply N1'; split; [rewrite Forall_forall in F2; auto|congruence]|].
  exists g'. split; [auto|]. split; [auto|]. split; [intros x; rewrite N, N1'; cbn [In]; intuition|]. intros x y. rewrite H, H1. cbn [In]. intuition.
Qed.

Lemma remove_spec c g : wf g -> exists g', remove_conditionals c g = Ok g' /\ wf g' /\
  (forall x, node g' x <-> node g x /\ c x = false) /\
  forall x y, edge g' x y <-> c x = false /\ c y = false /\ through (edge g) (fun z => c z = true) x y.
Proof.
  intros W. unfold remove_conditionals. destruct (bypass_all c g (g_nodes g) W) as (g1 & E1 & W1 & N1 & H1); [apply Forall_forall; auto|]. rewrite E1. cbn [bind].
  assert (Hc : forall x, In x (filter c (g_nodes g)) <-> node g x /\ c x = true) by (intros x; apply filter_In).
  destruct (del_nodes (filter c (g_nodes g)) g1 W1) as (g' & E & W' & N & H); [apply NoDup_filter, W|apply Forall_forall; intros x I; unfold node; rewrite N1; apply Hc in I; apply I|].
  exists g'. split; [auto|]. split; [auto|]. split.
  - intros x. rewrite N, Hc. unfold node. rewrite N1. destruct (c x); intuition congruence.
  - intros x y. rewrite H, H1. 
    assert (T : through (edge g) (fun z => In z (filter c (g_nodes g))) x y <-> through (edge g) (fun z => c z = true) x y).
    { split; intros (l & A & B); exists l; (split; [auto|]).
      - eapply Forall_impl; [|exact B]. cbn. intros z I. apply Hc in I. tauto.
      - clear -A B W Hc. induction A as [|u w l v Eu A IH]; [constructor|]. inversion B as [|? ? B1 B2]; subst. constructor; [|auto]. apply Hc. split; [eapply edge_nodes; eauto|auto]. }
    rewrite T. split.
    + intros (A & B & C). assert (X : node g x /\ node g y).
      { destruct A as (l & A & _). split; [inversion A as [? ? Q|? ? ? ? Q]; subst; exact (proj1 (edge_nodes _ _ _ W Q))|]. apply walk_last in A as (p & Ep & _). exact (proj2 (edge_nodes _ _ _ W Ep)). }
      rewrite Hc in B, C. destruct (c x), (c y); intuition congruence.
    + intros (A & B & C). split; [auto|]. rewrite !Hc. split; intros [_ X]; congruence.
Qed.
Lemma remove_paths c g g' : wf g -> remove_conditionals c g = Ok g' -> forall u v, c u = false -> c v = false ->
  path (edge g') u v <-> path (edge g) u v.
Proof.
  intros W E u v Cu Cv. destruct (remove_spec c g W) as (g1 & E1 & W1 & N & H). assert (g1 = g') as -> by congruence. split.
  - apply path_sub. intros x y Hxy. apply H in Hxy as (_ & _ & l & A & _). now exists l.
  - intros [l A].
    assert (G : exists w, through (edge g) (fun z => c z = true) u w /\ c w = false /\ (w = v \/ path (edge g') w v)).
    { clear Cu. induction A as [u v Euv|u w l v Euw A IH]; [exists v; split; [exists []; split; [now constructor|constructor]|auto]|].
      destruct (IH Cv) as (z & (m & B1 & B2) & Cz & D). destruct (c w) eqn:Cw.
      - exists z. split; [exists (w :: m); split; [now constructor|now constructor]|auto].
      - exists w. split; [exists []; split; [now constructor|constructor]|]. split; [auto|]. right.
        assert (edge g' w z) by (apply H; split; [auto|split; [auto|now exists m]]). destruct D as [->|D]; [now apply path_edge|eapply path_cons; eauto]. }
    destruct G as (w & T & Cw & D). assert (edge g' u w) by (apply H; auto). destruct D as [->|D]; [now apply path_edge|eapply path_cons; eauto].
Qed.

(** Graphs made with the library's operations. *)
Inductive constructed : digraph -> Prop :=
| con_empty : constructed g_empty
| con_node g n g' : constructed g -> add_node g n = Ok g' -> constructed g'
| con_edge g u v g' : constructed g -> add_edge g u v = Ok g' -> constructed g'
| con_del g u v g' : constructed g -> del_edge g u v = Ok g' -> constructed g'
| con_remove g n g' : constructed g -> del_node g n = Ok g' -> constructed g'.
Lemma constructed_wf g : constructed g -> wf g.
Proof.
  induction 1 as [|g n g' _ W E|g u v g' _ W E|g u v g' _ W E|g n g' _ W E]; [apply wf_empty|..].
  - unfold add_node in E. destruct (dmem (node_neighbors g) n) eqn:D; [discriminate|]. destruct (add_node_ok g n W) as (g1 & E1 & W1 & _).
    { unfold node, g_nodes. unfold dmem in D. destruct (dget (node_neighbors g) n) eqn:X; [discriminate|]. now apply dget_none. }
    unfold add_node in E1. rewrite D in E1. congruence.
  - destruct (in_dec Z.eq_dec u (g_nodes g)) as [Iu|Iu].
    2: { unfold add_edge in E. apply dget_none in Iu. rewrite Iu in E. discriminate. }
    destruct (in_dec Z.eq_dec v (g_nodes g)) as [Iv|Iv].
    2: { unfold add_edge in E. destruct W as (_ & X & _). rewrite <- X in Iv. apply dget_none in Iv. rewrite Iv in E. destruct (dget (node_neighbors g) u); discriminate. }
    destruct (in_dec Z.eq_dec v (nb g u)) as [I|I].
    + exfalso. unfold add_edge in E. rewrite (node_nb g u Iu), (node_inc g v W Iv) in E. unfold dmem in E. rewrite (node_nb g v Iv) in E.
      pose proof I as J. destruct W as (_ & _ & W3 & _). apply W3 in J. apply zmem_in in I, J. rewrite I, J in E. discriminate.
    + destruct (add_edge_ok g u v W Iu Iv I) as (g1 & E1 & W1 & _). congruence.
  - destruct (in_dec Z.eq_dec v (nb g u)) as [I|I].
    + destruct (del_edge_ok g u v W I) as (g1 & E1 & W1 & _). congruence.
    + exfalso. unfold del_edge, dget_r in E. unfold nb in I. destruct (dget (node_neighbors g) u) as [l|]; [|discriminate]. cbn [bind] in E.
      assert (X : remove1 v l = Err ValueError). { clear -I. induction l as [|y l IH]; [reflexivity|]. cbn. destruct (Z.eqb_spec y v) as [->|n]; [exfalso; apply I; left; auto|]. rewrite IH by (intros X; apply I; right; auto). reflexivity. }
      rewrite X in E. discriminate.
  - destruct (in_dec Z.eq_dec n (g_nodes g)) as [I|I]; [destruct (del_node_ok g n W I) as (g1 & E1 & W1 & _); congruence|].
    exfalso. unfold del_node, incidents, dget_r in E. destruct W as (_ & X & _). rewrite <- X in I. apply dget_none in I. rewrite I in E. discriminate.
Qed.
