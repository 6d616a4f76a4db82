(** Which values an instruction of a program without branches may read, and what the value
    dependency graph says about it. *)
From Verif Require Import ListLemmas CfgProps DomProps SsaProps.
From Verif Require Export SkipProps.
From Coq Require Import ZifyBool ZifyNat.

(** One step through a phi function: an edge to a name that no instruction writes. *)
Definition phi_step (st : ssa) (vg : vgraph) (a b : name) : Prop := In (a, b) (v_edges vg) /\ forall i, ~ In b (s_written st i).
Inductive carried (st : ssa) (vg : vgraph) (a : name) : name -> Prop :=
| carried_here : carried st vg a a
| carried_on b c : carried st vg a b -> phi_step st vg b c -> carried st vg a c.

(** The last of the instructions that writes [r]. *)
Definition last_writer (p : sprog) (r : Z) (o : option nat) (l : list nat) : option nat := fold_left (fun o i => if zmem r (p_writes p i) then Some i else o) l o.
Lemma last_writer_app p r o l m : last_writer p r o (l ++ m) = last_writer p r (last_writer p r o l) m. Proof. apply fold_left_app. Qed.
Lemma last_writer_none p r : forall l o, (forall i, In i l -> ~ In r (p_writes p i)) -> last_writer p r o l = o.
Proof. induction l as [|i l IH]; intros o H; [auto|]. unfold last_writer. cbn [fold_left]. destruct (zmem r (p_writes p i)) eqn:E; [apply GraphProofs.zmem_in in E; destruct (H i); [left|]; auto|]. apply IH. intros j J. apply H. now right. Qed.
Lemma last_writer_cases p r : forall l, (forall i, In i l -> ~ In r (p_writes p i)) \/ exists l1 j l2, l = l1 ++ j :: l2 /\ In r (p_writes p j) /\ forall i, In i l2 -> ~ In r (p_writes p i).
Proof.
  induction l as [|i l IH]; [left; intros i []|]. destruct IH as [H|(l1 & j & l2 & -> & I & N)]; [|right; exists (i :: l1), j, l2; auto].
  destruct (in_dec Z.eq_dec r (p_writes p i)) as [W|W]; [right; exists [], i, l; auto|left; intros j [<-|J]; auto].
Qed.
Lemma last_writer_at p r o l1 j l2 : In r (p_writes p j) -> (forall i, In i l2 -> ~ In r (p_writes p i)) -> last_writer p r o (l1 ++ j :: l2) = Some j.
Proof. intros I N. change (j :: l2) with ([j] ++ l2). rewrite !last_writer_app, (last_writer_none p r l2) by auto. unfold last_writer at 1. cbn [fold_left]. apply GraphProofs.zmem_in in I. now rewrite I. Qed.
Lemma last_writer_some p r l j : last_writer p r None l = Some j -> exists l1 l2, l = l1 ++ j :: l2 /\ In r (p_writes p j) /\ forall i, In i l2 -> ~ In r (p_writes p i).
Proof. intros E. destruct (last_writer_cases p r l) as [H|(l1 & j' & l2 & -> & I & N)]; [rewrite last_writer_none in E by auto; discriminate|]. rewrite last_writer_at in E by auto. injection E as ->. eauto. Qed.
Lemma last_writer_no p r l : last_writer p r None l = None -> forall i, In i l -> ~ In r (p_writes p i).
Proof. intros E. destruct (last_writer_cases p r l) as [H|(l1 & j' & l2 & -> & I & N)]; [auto|]. rewrite last_writer_at in E by auto. discriminate. Qed.

(** What is known of a finished form. *)
Record formed (p : sprog) (g : digraph) (root : Z) (st : ssa) (vg : vgraph) : Prop := Formed {
  fm_phis : phis_reach p g root st;
  fm_written : forall l b i, way (edges g) root l b -> In i (p_inst p b) -> map fst (s_written st i) = p_writes p i;
  fm_owner : forall i, s_written st i <> [] -> exists l b, way (edges g) root l b /\ In i (p_inst p b);
  fm_pos : forall r k, (exists i, In (r, k) (s_written st i)) \/ (exists b, In (r, k) (map fst (s_phi st b))) -> 0 < k;
  fm_root : s_phi st root = [];
  fm_pred : forall u v, edges g u v -> exists l, way (edges g) root l u;
  fm_keys : forall b, NoDup (map fst (s_phi st b));
  fm_block : forall b c k, In k (map fst (s_phi st b)) -> In k (map fst (s_phi st c)) -> b = c;
  fm_inst : forall i j k, In k (s_written st i) -> In k (s_written st j) -> i = j;
  fm_apart : forall b i k, In k (map fst (s_phi st b)) -> In k (s_written st i) -> False;
  fm_edges : forall a b, In (a, b) (v_edges vg) <-> exists n, In n (g_nodes g) /\ ((exists args, In (b, args) (s_phi st n) /\ In a args) \/ exists i, In i (p_inst p n) /\ In a (s_read st i) /\ In b (s_written st i));
  fm_nodes : forall l b, way (edges g) root l b -> In b (g_nodes g) }.

Lemma way_snoc R x l u v : way R x (l ++ [u]) u -> R u v -> way R x ((l ++ [u]) ++ [v]) v.
Proof.
  intros W E. remember (l ++ [u]) as m. clear Heqm. induction W as [x|x w m y Q W IH]; cbn [app].
  - econstructor; [exact E|constructor].
  - econstructor; [exact Q|auto].
Qed.
Lemma way_ends R x l u : way R x l u -> exists m, l = m ++ [u].
Proof. induction 1 as [u|u w l v E W (m & ->)]; [exists []; auto|exists (u :: m); auto]. Qed.
Lemma way_cut R x l : forall u m c v, l = m ++ c :: u -> way R x l v -> way R x (m ++ [c]) c.
Proof.
  intros u m c v E W. revert m E. induction W as [x|x w l v Q W IH]; intros m E.
  - destruct m as [|y m]; cbn [app] in E; [injection E as <- _; constructor|]. injection E as _ E. destruct m; discriminate.
  - destruct m as [|y m]; cbn [app] in E; injection E as <- E; [constructor|]. cbn [app]. econstructor; [exact Q|auto].
Qed.
Lemma way_swap R x l : forall u m c v m', l = m ++ c :: u -> way R x l v -> way R x (m' ++ [c]) c -> way R x (m' ++ c :: u) v.
Proof.
  intros u m c v m' E W W'. assert (Wc : way R c (c :: u) v).
  { clear W'. revert m E. induction W as [x|x w l v Q W IH]; intros m E.
    - destruct m as [|y m]; cbn [app] in E; [injection E as <- <-; constructor|]. injection E as _ E. destruct m; discriminate.
    - destruct m as [|y m]; cbn [app] in E; injection E as <- E; [subst l; econstructor; eauto|eauto]. }
  clear W. remember (m' ++ [c]) as q eqn:Eq. revert m' Eq. induction W' as [y|y w q z Q W' IH]; intros m' Eq.
  - destruct m' as [|a m']; cbn [app] in Eq; [exact Wc|]. injection Eq as _ Eq. destruct m'; discriminate.
  - destruct m' as [|a m']; cbn [app] in Eq; [injection Eq as <- ->; inversion W'|]. injection Eq as <- Eq. cbn [app]. econstructor; [exact Q|]. now apply IH.
Qed.

Lemma reach_none r k l : (forall k', ~ In (r, k') l) -> reach r k l = k.
Proof. revert k. induction l as [|[v j] l IH]; intros k H; [auto|]. unfold reach. cbn [fold_left fst snd]. destruct (Z.eqb_spec v r) as [->|]; [destruct (H j); left; auto|]. apply IH. intros k' I. apply (H k'). right. auto. Qed.
Lemma reach_in r l : forall k, (exists k', In (r, k') l) -> In (r, reach r k l) l.
Proof.
  induction l as [|[v j] l IH] using rev_ind; intros k (k' & I); [destruct I|]. rewrite reach_app. change (reach r (reach r k l) [(v, j)]) with (if v =? r then j else reach r k l). destruct (Z.eqb_spec v r) as [->|N]; apply in_app_iff; [right; left; auto|].
  left. apply IH. exists k'. apply in_app_iff in I as [I|[Q|[]]]; [auto|congruence].
Qed.

(** Where the name found at a place comes from. *)
Definition found (p : sprog) (st : ssa) (r : Z) (l : list Z) (b : Z) (i1 : list nat) : Z := reach r 0 (flat_map (block_names p st) l ++ map fst (s_phi st b) ++ flat_map (s_written st) i1).
Definition passed (p : sprog) (l : list Z) (i1 : list nat) : list nat := flat_map (p_inst p) l ++ i1.

Lemma written_names p g root st vg l b i1 r : formed p g root st vg -> way (edges g) root l b -> incl i1 (p_inst p b) -> (exists k, In (r, k) (flat_map (s_written st) i1)) <-> exists i, In i i1 /\ In r (p_writes p i).
Proof.
  intros F W Inc. split.
  - intros (k & I). apply in_flat_map in I as (i & Ii & I). exists i. split; [auto|]. rewrite <- (fm_written _ _ _ _ _ F l b i W) by auto. apply in_map_iff. exists (r, k). auto.
  - intros (i & Ii & I). rewrite <- (fm_written _ _ _ _ _ F l b i W) in I by auto. apply in_map_iff in I as ([r' k] & E & I). cbn [fst] in E. subst r'. exists k. apply in_flat_map. eauto.
Qed.

Lemma origin p g root st vg r : formed p g root st vg -> forall n l b i1 i2, (length l <= n)%nat -> way (edges g) root (l ++ [b]) b -> p_inst p b = i1 ++ i2 -> let k := found p st r l b i1 in
  (exists j, last_writer p r None (passed p l i1) = Some j /\ In (r, k) (s_written st j)) \/
  (exists l1 u c rest T, l ++ [b] = (l1 ++ [u]) ++ c :: rest /\ In (r, k) (map fst (s_phi st c)) /\ edges g u c /\ (forall i, In i T -> ~ In r (p_writes p i)) /\ passed p l i1 = flat_map (p_inst p) (l1 ++ [u]) ++ T /\
     forall l', way (edges g) root (l' ++ [c]) c -> exists l'', way (edges g) root (l'' ++ [b]) b /\ passed p l'' i1 = flat_map (p_inst p) l' ++ T) \/
  (k = 0 /\ last_writer p r None (passed p l i1) = None).
Proof.
  intros F. induction n as [n IH] using lt_wf_ind. intros l b i1 i2 Ln W Eb. cbv zeta. unfold found, passed. rewrite last_writer_app.
  assert (Inc : incl i1 (p_inst p b)) by (rewrite Eb; intros x X; apply in_app_iff; auto). pose proof (written_names p g root st vg (l ++ [b]) b i1 r F W Inc) as Wn.
  destruct (last_writer_cases p r i1) as [Nw|(a & j & d & Ei & Wj & Nd)].
  - assert (Nn : forall k, ~ In (r, k) (flat_map (s_written st) i1)) by (intros k I; destruct (proj1 Wn (ex_intro _ k I)) as (i & Ii & Q); eapply Nw; eauto).
    rewrite (last_writer_none p r i1) by auto. rewrite !reach_app, (reach_none _ _ _ Nn).
    assert (D : (exists k, In (r, k) (map fst (s_phi st b))) \/ forall k, ~ In (r, k) (map fst (s_phi st b))).
    { destruct (in_dec Z.eq_dec r (map fst (map fst (s_phi st b)))) as [Q|Q]; [left; apply in_map_iff in Q as ([r' k] & E & Q); cbn [fst] in E; subst; eauto|]. right. intros k I. apply Q, in_map_iff. exists (r, k). auto. }
    destruct D as [Ex|Nx].
    + right. left. assert (Nb : l <> []). { intros ->. cbn [app] in W. assert (b = root) by (inversion W; auto). subst b. rewrite (fm_root _ _ _ _ _ F) in Ex. destruct Ex as (k & []). }
      destruct (exists_last Nb) as (l1 & u & ->). exists l1, u, b, [], i1. split; [auto|]. split; [apply reach_in; auto|].
      destruct (way_last _ _ _ _ W) as (m & Em & H). apply app_inj_tail in Em as [Em _]. destruct H as [[H _]|(u' & Wu & Eu)]; [subst m; destruct l1; discriminate|]. destruct (way_ends _ _ _ _ Wu) as (m' & Em'). rewrite <- Em in Em'. apply app_inj_tail in Em' as [_ <-].
      split; [auto|]. split; [auto|]. split; [auto|]. intros l' W'. exists l'. auto.
    + rewrite (reach_none _ _ _ Nx). destruct (way_last _ _ _ _ W) as (m & Em & H). apply app_inj_tail in Em as [<- _]. destruct H as [[-> _]|(u & Wu & Eu)]; [right; right; auto|].
      destruct (way_ends _ _ _ _ Wu) as (l0 & El). assert (L0 : (length l0 < n)%nat) by (rewrite El, app_length in Ln; cbn [length] in Ln; lia).
      rewrite El in Wu. destruct (IH (length l0) L0 l0 u (p_inst p u) [] (le_n _) Wu (eq_sym (app_nil_r _))) as [(j & H1 & H2)|[(l1 & v & c & rest & T & H1 & H2 & H3 & H4 & H5 & H6)|[H1 H2]]].
      * left. exists j. subst l. unfold found, passed in *. rewrite !flat_map_app. cbn [flat_map]. rewrite !app_nil_r. auto.
      * right. left. exists l1, v, c, (rest ++ [b]), (T ++ i1). subst l. split; [rewrite H1, <- !app_assoc; reflexivity|].
        split; [unfold found in H2; rewrite flat_map_app; cbn [flat_map]; rewrite app_nil_r; exact H2|]. split; [auto|]. split; [intros i I; apply in_app_iff in I as [I|I]; auto|].
        split; [unfold passed in H5; rewrite flat_map_app; cbn [flat_map]; rewrite app_nil_r, H5, <- app_assoc; reflexivity|].
        intros l' W'. destruct (H6 l' W') as (l'' & W'' & E''). exists (l'' ++ [u]). split; [apply way_snoc; auto|]. unfold passed in E''. rewrite flat_map_app. cbn [flat_map]. rewrite app_nil_r, E'', <- app_assoc. reflexivity.
      * right. right. subst l. unfold found, passed in *. rewrite !flat_map_app. cbn [flat_map]. rewrite !app_nil_r. auto.
  - left. exists j. split; [rewrite Ei; apply last_writer_at; auto|]. rewrite !reach_app, Ei, flat_map_app. change (j :: d) with ([j] ++ d). rewrite flat_map_app, !reach_app. cbn [flat_map]. rewrite app_nil_r.
    rewrite (reach_none r _ (flat_map (s_written st) d)).
    2: { intros k I. destruct (proj1 (written_names p g root st vg (l ++ [b]) b d r F W ltac:(intros x X; apply Inc; rewrite Ei; apply in_app_iff; right; right; auto)) (ex_intro _ k I)) as (i & Ii & Q). eapply Nd; eauto. }
    apply reach_in. rewrite <- (fm_written _ _ _ _ _ F (l ++ [b]) b j W) in Wj by (apply Inc; rewrite Ei; apply in_app_iff; right; left; auto). apply in_map_iff in Wj as ([r' k] & Q & I). cbn [fst] in Q. subst r'. eauto.
Qed.

Lemma found_whole p st r l u : found p st r l u (p_inst p u) = reach r 0 (flat_map (block_names p st) (l ++ [u])).
Proof. unfold found. rewrite flat_map_app. cbn [flat_map]. rewrite app_nil_r. reflexivity. Qed.

Lemma carried_to p g root st vg r : formed p g root st vg -> forall n l b i1 i2, (length l <= n)%nat -> way (edges g) root (l ++ [b]) b -> p_inst p b = i1 ++ i2 ->
  match last_writer p r None (passed p l i1) with
  | Some j => exists kj, In (r, kj) (s_written st j) /\ carried st vg (r, kj) (r, found p st r l b i1)
  | None => carried st vg (r, 0) (r, found p st r l b i1)
  end.
Proof.
  intros F. induction n as [n IH] using lt_wf_ind. intros l b i1 i2 Ln W Eb. destruct (origin p g root st vg r F (length l) l b i1 i2 (le_n _) W Eb) as [(j & -> & I)|[(l1 & u & c & rest & T & El & Ic & Eu & NT & Ep & _)|[E0 ->]]].
  - exists (found p st r l b i1). split; [auto|constructor].
  - rewrite Ep, last_writer_app, (last_writer_none p r T) by auto. pose proof (way_cut _ _ _ _ _ _ _ El W) as Wc.
    assert (Wu : way (edges g) root (l1 ++ [u]) u) by (apply (way_cut (edges g) root (l ++ [b]) (c :: rest) l1 u b ltac:(rewrite El, <- app_assoc; reflexivity) W)).
    assert (L1 : (length l1 < n)%nat). { apply (f_equal (@length Z)) in El. rewrite !app_length in El. cbn [length] in El. lia. }
    pose proof (IH (length l1) L1 l1 u (p_inst p u) [] (le_n _) Wu (eq_sym (app_nil_r _))) as H. rewrite found_whole in H. unfold passed in H. rewrite flat_map_app. cbn [flat_map]. rewrite app_nil_r.
    set (k := found p st r l b i1) in *. apply in_map_iff in Ic as ([[r' k'] args] & Q & Ic). cbn [fst] in Q. injection Q as -> ->.
    destruct (fm_phis _ _ _ _ _ F c r k args Ic) as (preds & f & _ & Hp & Ea & Hf).
    assert (St : phi_step st vg (r, reach r 0 (flat_map (block_names p st) (l1 ++ [u]))) (r, k)).
    { split.
      - apply (fm_edges _ _ _ _ _ F). exists c. split; [eapply fm_nodes; eauto|]. left. exists args. split; [auto|]. rewrite Ea, <- (Hf l1 u Wu Eu). apply in_map_iff. exists u. split; [auto|now apply Hp].
      - intros i I. eapply (fm_apart _ _ _ _ _ F c i); [|exact I]. apply in_map_iff. exists ((r, k), args). auto. }
    destruct (last_writer p r None (flat_map (p_inst p) l1 ++ p_inst p u)) as [j|]; [destruct H as (kj & Ij & H); exists kj; split; [auto|]|]; eapply carried_on; eauto.
  - unfold found in E0. fold (found p st r l b i1) in E0. rewrite E0. constructor.
Qed.

Lemma carried_back p g root st vg r a q : formed p g root st vg -> carried st vg a q -> forall k0, a = (r, k0) -> forall l b i1 i2, way (edges g) root (l ++ [b]) b -> p_inst p b = i1 ++ i2 -> q = (r, found p st r l b i1) ->
  (forall j, In (r, k0) (s_written st j) -> exists l', way (edges g) root (l' ++ [b]) b /\ last_writer p r None (passed p l' i1) = Some j) /\
  (k0 = 0 -> exists l', way (edges g) root (l' ++ [b]) b /\ last_writer p r None (passed p l' i1) = None).
Proof.
  intros F C k0 ->. induction C as [|q1 q2 C IH [St Nw]]; intros l b i1 i2 W Eb Eq.
  - injection Eq as Ek. destruct (origin p g root st vg r F (length l) l b i1 i2 (le_n _) W Eb) as [(j & E & I)|[(l1 & u & c & rest & T & El & Ic & Eu & NT & Ep & _)|[E0 E]]]; rewrite <- Ek in *.
    + split; [intros j' J; rewrite (fm_inst _ _ _ _ _ F j' j _ J I); eauto|]. intros ->. exfalso. pose proof (fm_pos _ _ _ _ _ F r 0 (or_introl (ex_intro _ j I))). lia.
    + split; [intros j' J; exfalso; eapply (fm_apart _ _ _ _ _ F c j'); eauto|]. intros ->. exfalso. pose proof (fm_pos _ _ _ _ _ F r 0 (or_intror (ex_intro _ c Ic))). lia.
    + split; [|eauto]. intros j' J. exfalso. pose proof (fm_pos _ _ _ _ _ F r k0 (or_introl (ex_intro _ j' J))). lia.
  - subst q2. destruct (origin p g root st vg r F (length l) l b i1 i2 (le_n _) W Eb) as [(j & E & I)|[(l1 & u & c & rest & T & El & Ic & Eu & NT & Ep & Sw)|[E0 E]]]; [destruct (Nw j I)| |].
    + apply (fm_edges _ _ _ _ _ F) in St as (n & _ & [(args & Ia & I1)|(i & _ & _ & I2)]); [|destruct (Nw i I2)].
      assert (c = n) by (eapply (fm_block _ _ _ _ _ F); [exact Ic|apply in_map_iff; exists ((r, found p st r l b i1), args); auto]). subst n.
      destruct (fm_phis _ _ _ _ _ F c r _ args Ia) as (preds & f & _ & Hp & Ea & Hf). rewrite Ea in I1. apply in_map_iff in I1 as (v & <- & Iv). apply Hp in Iv. destruct (fm_pred _ _ _ _ _ F v c Iv) as (lv & Wv). destruct (way_ends _ _ _ _ Wv) as (m & ->).
      destruct (IH m v (p_inst p v) [] Wv (eq_sym (app_nil_r _))) as [H1 H2]; [rewrite found_whole, (Hf m v Wv Iv); auto|].
      assert (Go : forall l', way (edges g) root (l' ++ [v]) v -> exists l'', way (edges g) root (l'' ++ [b]) b /\ last_writer p r None (passed p l'' i1) = last_writer p r None (passed p l' (p_inst p v))).
      { intros l' W'. destruct (Sw (l' ++ [v])) as (l'' & W'' & E''); [apply way_snoc; auto|]. exists l''. split; [auto|]. rewrite E'', last_writer_app, (last_writer_none p r T) by auto. rewrite flat_map_app. cbn [flat_map]. rewrite app_nil_r. reflexivity. }
      split; [intros j J; destruct (H1 j J) as (l' & W' & E')|intros Z; destruct (H2 Z) as (l' & W' & E')]; destruct (Go l' W') as (l'' & W'' & E''); exists l''; (split; [auto|congruence]).
    + exfalso. rewrite E0 in *. apply (fm_edges _ _ _ _ _ F) in St as (n & _ & [(args & Ia & _)|(i & _ & _ & I2)]); [|destruct (Nw i I2)].
      enough (0 < 0) by lia. apply (fm_pos _ _ _ _ _ F r). right. exists n. apply in_map_iff. exists ((r, 0), args). auto.
Qed.
