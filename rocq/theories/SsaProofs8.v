(** When the order of the renaming agrees with dominance. *)
From Verif Require Import ListLemmas CfgProps.
From Verif Require Export SsaProofs7.
From Coq Require Import ZifyBool ZifyNat.

Lemma before_app c l1 l2 : before c (l1 ++ l2) = if zmem c l1 then before c l1 else l1 ++ before c l2.
Proof.
  induction l1 as [|n l1 IH]; cbn [app before zmem existsb]; [auto|]. rewrite IH. rewrite (Z.eqb_sym c n). destruct (n =? c); cbn [orb]; [auto|]. unfold zmem. now destruct (existsb (Z.eqb c) l1).
Qed.
Lemma before_in x c l : In x (before c l) -> In x l /\ x <> c.
Proof. induction l as [|n l IH]; cbn [before]; [intros []|]. destruct (Z.eqb_spec n c) as [->|N]; [intros []|]. intros [<-|I]; [split; [left; auto|auto]|]. apply IH in I as [A B]. split; [right; auto|auto]. Qed.
Lemma child_after ch : (forall n l, preorder ch n l -> NoDup l -> forall x c, In x l -> In c (ch x) -> In x (before c l)) /\ (forall ns l, preorders ch ns l -> NoDup l -> forall x c, In x l -> In c (ch x) -> In x (before c l)).
Proof.
  apply preorder_ind2.
  - intros n l P IH Nd x c X C. inversion Nd; subst. destruct (order_closed ch) as [_ Cl]. destruct (Cl _ _ P) as [Ci Cc]. cbn [before].
    assert (Cn : In c l) by (destruct X as [<-|X]; eauto). destruct (Z.eqb_spec n c) as [->|N]; [contradiction|]. destruct X as [<-|X]; [left; auto|right; auto].
  - intros _ x c [].
  - intros n ns l l' P IH P' IH' Nd x c X C. rewrite before_app. pose proof (nodup_app_l _ _ Nd) as N1. pose proof (nodup_app_r _ _ Nd) as N2. destruct (order_closed ch) as [Cl1 Cl2]. apply in_app_iff in X as [X|X].
    + destruct (Cl1 _ _ P) as [_ Cc]. rewrite (proj2 (zmem_in c l)) by eauto. auto.
    + destruct (Cl2 _ _ P') as [_ Cc]. specialize (Cc x c X C). assert (Nc : zmem c l = false) by (apply zmem_notin; intros Q; eapply nodup_app_disj; eauto). rewrite Nc. apply in_app_iff. right. auto.
Qed.
Lemma before_trans d i b l : NoDup l -> In d (before i l) -> In i (before b l) -> In d (before b l).
Proof.
  induction l as [|n l IH]; cbn [before]; intros Nd D I; [destruct D|]. inversion Nd; subst. destruct (Z.eqb_spec n b) as [->|N]; [destruct I|]. destruct (Z.eqb_spec n i) as [->|N2]; [destruct D|]. destruct D as [<-|D]; [left; auto|]. destruct I as [->|I]; [congruence|]. right. auto.
Qed.
Lemma dominator_before R root idom ch order : idoms R root idom -> tree_of idom ch -> preorder ch root order -> NoDup order -> (forall v, In v order <-> reachable R root v) ->
  forall d b, reachable R root b -> strictly_dominates R root d b -> In d (before b order).
Proof.
  intros Id T Po No Oa d b Rb. pose proof Id as (I1 & I2). revert Rb. rewrite reachable_way. intros (w & W). remember (length w) as n. revert b w W Heqn. induction n as [n IH] using lt_wf_ind. intros b w W -> Sd.
  assert (Nb : b <> root) by (intros ->; destruct Sd as [Q1 Q2]; apply dominates_root in Q2; congruence).
  destruct (I2 b) as (i & Ei); [apply reachable_way; eauto|auto|]. pose proof (proj1 (I1 b i) Ei) as [_ Im]. assert (Ib : In i (before b order)).
  { apply (proj1 (child_after ch) root order Po No); [apply Oa; eapply dominator_reachable; [apply reachable_way; eauto|exact (proj2 (proj1 Im))]|now apply T]. }
  destruct (Z.eq_dec d i) as [->|Ni]; [auto|]. destruct Sd as [Q1 Q2]. apply (dominates_up R root d b i Im) in Q2 as [->|Q2]; [congruence|]. eapply before_trans; [auto| |exact Ib].
  destruct (way_cut _ _ _ _ i W) as (w' & W' & _ & L). { exact (proj2 (proj1 Im) _ W). } apply (IH (length w')) with (w := w'); auto; [apply L; destruct Im as [[Q _] _]; congruence|]. split; auto.
Qed.
(** What a block defines, in the result. *)
Definition block_names (p : sprog) (st : ssa) (b : Z) : list name := map fst (s_phi st b) ++ flat_map (s_written st) (p_inst p b).
Lemma last_split (v : Z) (f : Z -> list Z) : forall l, (forall b, In b l -> ~ In v (f b)) \/ exists l1 b l2, l = l1 ++ b :: l2 /\ In v (f b) /\ forall c, In c l2 -> ~ In v (f c).
Proof.
  induction l as [|a l IH]; [left; intros b []|]. destruct IH as [IH|(l1 & b & l2 & -> & I & N)]; [|right; exists (a :: l1), b, l2; auto].
  destruct (in_dec Z.eq_dec v (f a)) as [I|N]; [right; exists [], a, l; auto|left; intros b [<-|B]; auto].
Qed.
Lemma occ_flat_0 v (f : Z -> list Z) l : (forall b, In b l -> ~ In v (f b)) -> occ v (flat_map f l) = 0.
Proof. intros N. apply occ_0. intros I. apply in_flat_map in I as (b & B & I). now apply (N b). Qed.
Lemma reaching p g root st h df gl phi st0 : constructed g -> In root (g_nodes g) -> NoDup (flat_map (p_inst p) (g_nodes g)) -> stages p g root st h df gl phi st0 ->
  forall b i1 i i2 r k, reachable (edge g) root b -> p_inst p b = i1 ++ i :: i2 -> In (r, k) (s_read st i) ->
  (forall j1 j j2, i1 = j1 ++ j :: j2 -> In r (p_writes p j) -> (forall j', In j' j2 -> ~ In r (p_writes p j')) -> In (r, k) (s_written st j) /\ forall k', In (r, k') (s_written st j) -> k' <= k) /\
  ((forall j, In j i1 -> ~ In r (p_writes p j)) -> In r (placed phi b) -> In (r, k) (map fst (s_phi st b))) /\
  ((forall j, In j i1 -> ~ In r (p_writes p j)) -> ~ In r (placed phi b) ->
    (forall c, reachable (edge g) root c -> In r (definitions p (placed phi) c) -> dominates (edge g) root c b \/ dominates (edge g) root b c) ->
    (k = 0 /\ forall c, strictly_dominates (edge g) root c b -> ~ In r (definitions p (placed phi) c)) \/
    exists c, strictly_dominates (edge g) root c b /\ In r (definitions p (placed phi) c) /\ (forall d, strictly_dominates (edge g) root d b -> In r (definitions p (placed phi) d) -> dominates (edge g) root d c) /\
      In (r, k) (block_names p st c) /\ forall k', In (r, k') (block_names p st c) -> k' <= k).
Proof.
  intros Cg Nr Ni Sg b i1 i i2 r k Rb Ei Ir. pose proof (dead_exact _ _ _ _ _ _ _ _ _ Cg Nr Ni Sg) as De. destruct (reads_exact _ _ _ _ _ _ _ _ _ Cg Nr Ni Sg) as (order & Po & No & Oa & Ph & Rd & Ar & Out).
  destruct Sg as ((tree & E1) & _ & E3 & _ & E5). destruct (place_ok _ _ _ _ _ E3) as (_ & _ & F & _). destruct (tree_facts g root h tree Cg Nr E1) as (Id & T & _ & _). assert (Ib : In b order) by now apply Oa.
  destruct (Rd b i1 i i2 Ib Ei) as (R1 & _ & _). destruct (proj1 (R1 r k) Ir) as [Irr Ek]. clear R1.
  assert (Sub : forall c e, In e (s_phi st c) -> In e (s_phi st0 c)).
  { intros c e Ie. destruct (dead_ok p g st0) as (_ & _ & D3). rewrite E5, D3 in Ie. destruct (zmem c (g_nodes g)); [apply filter_In in Ie; tauto|auto]. }
  split; [|split].
  - intros j1 j j2 Ej Wj Nj. assert (Eb : p_inst p b = j1 ++ j :: (j2 ++ i :: i2)) by (rewrite Ei, Ej, <- app_assoc; reflexivity). destruct (Rd b j1 j _ Ib Eb) as (_ & _ & Wt). rewrite Wt.
    assert (Ek' : k = occ r (flat_map (definitions p (placed phi)) (before b order) ++ placed phi b ++ flat_map (p_writes p) j1) + occ r (p_writes p j)).
    { rewrite Ek, Ej, flat_map_app. cbn [flat_map]. rewrite !occ_app, (occ_0 r (flat_map (p_writes p) j2)); [lia|]. intros I. apply in_flat_map in I as (j' & J & I). now apply (Nj j' J). }
    apply occ_in in Wj. split; [apply numbered_in; lia|]. intros k' I. apply numbered_in in I. lia.
  - intros Nw Pr. assert (Ek' : k = occ r (flat_map (definitions p (placed phi)) (before b order)) + 1).
    { rewrite Ek, !occ_app, (nodup_occ r (placed phi b) (fresh_placed phi b F) Pr), (occ_0 r (flat_map (p_writes p) i1)); [lia|]. intros I. apply in_flat_map in I as (j' & J & I). now apply (Nw j' J). }
    assert (I0 : In (r, k) (map fst (s_phi st0 b))) by (rewrite (Ph b Ib); apply numbered_in; rewrite (nodup_occ r (placed phi b) (fresh_placed phi b F) Pr); lia).
    apply in_map_iff in I0 as (e & Ee & I0). apply in_map_iff. exists e. split; [auto|]. apply De; [auto|]. rewrite Ee. cbn [fst]. intros (j1 & j & j2 & Ej & Wj & Rj & Bj). rewrite Ei in Ej. apply app_eq_app in Ej as (q & [[Q1 Q2]|[Q1 Q2]]).
    + destruct q as [|q0 q]; cbn [app] in Q2; injection Q2 as -> ->; [contradiction|]. apply (Nw q0); [rewrite Q1; apply in_app_iff; right; left; auto|auto].
    + destruct q as [|q0 q]; cbn [app] in Q2; injection Q2 as -> ->; [contradiction|]. apply (Bj q0); [rewrite Q1; apply in_app_iff; right; left; auto|auto].
  - intros Nw Np Hd. set (D := definitions p (placed phi)) in *. assert (Ek' : k = occ r (flat_map D (before b order))).
    { rewrite Ek, !occ_app, (occ_0 r (placed phi b) Np), (occ_0 r (flat_map (p_writes p) i1)); [lia|]. intros I. apply in_flat_map in I as (j' & J & I). now apply (Nw j' J). }
    assert (Bs : forall c, In c (before b order) -> reachable (edge g) root c /\ (In r (D c) -> strictly_dominates (edge g) root c b)).
    { intros c I. pose proof (before_in c b order I) as [Io Nc]. apply Oa in Io as Rc. split; [auto|]. intros Ic. destruct (Hd c Rc Ic) as [Q|Q]; [split; auto|]. exfalso.
      assert (In b (before c order)) by (eapply (dominator_before _ _ _ _ _ Id T Po No Oa); eauto; split; auto). pose proof (before_trans c b c order No I H) as X. apply before_in in X as [_ X]. congruence. }
    assert (Sb : forall c, strictly_dominates (edge g) root c b -> In c (before b order)) by (intros c Sc; eapply (dominator_before _ _ _ _ _ Id T Po No Oa); eauto).
    destruct (last_split r D (before b order)) as [N|(l1 & c & l2 & El & Ic & N)].
    + left. split; [rewrite Ek'; now apply occ_flat_0|]. intros c Sc. apply N. auto.
    + right. exists c. assert (Icb : In c (before b order)) by (rewrite El; apply in_app_iff; right; left; auto). destruct (Bs c Icb) as [Rc Sc]. specialize (Sc Ic).
      assert (Ic' : In c order) by now apply Oa.
      assert (Ebc : before c order = l1).
      { assert (Ex : exists l3, order = before b order ++ l3). { clear. induction order as [|n l (l3 & IH)]; cbn [before]; [exists []; auto|]. destruct (n =? b); [exists (n :: l); auto|]. exists l3. cbn [app]. now rewrite <- IH. }
        destruct Ex as (l3 & Ex). rewrite El, <- app_assoc in Ex. cbn [app] in Ex. rewrite Ex in No |- *. apply before_split. apply NoDup_remove_2 in No. rewrite in_app_iff in No. auto. }
      assert (Ec : k = occ r (flat_map D l1) + occ r (D c)) by (rewrite Ek', El, flat_map_app; cbn [flat_map]; rewrite !occ_app, (occ_flat_0 r D l2 N); lia).
      assert (Ed : occ r (D c) = occ r (placed phi c) + occ r (flat_map (p_writes p) (p_inst p c))) by (unfold D, definitions; apply occ_app).
      split; [auto|]. split; [auto|]. split; [|split].
      * intros d Sd Id_. destruct (dominators_chain _ _ _ Id b d c Rb (proj2 Sd) (proj2 Sc)) as [Q|Q]; [auto|]. destruct (Z.eq_dec d c) as [->|Ndc]; [apply self_dominates|]. exfalso.
        assert (Icd : In c (before d order)) by (eapply (dominator_before _ _ _ _ _ Id T Po No Oa); [eapply dominator_reachable; [exact Rb|exact (proj2 Sd)]|split; [congruence|auto]]).
        pose proof (Sb d Sd) as Idb. rewrite El in Idb. apply in_app_iff in Idb as [Q1|[Q1|Q1]]; [|congruence|apply (N d Q1 Id_)].
        rewrite <- Ebc in Q1. pose proof (before_trans c d c order No Icd Q1) as X. apply before_in in X as [_ X]. congruence.
      * pose proof Ic as Oc. apply occ_in in Oc. rewrite Ed in Ec. unfold block_names. apply in_app_iff. destruct (in_dec Z.eq_dec r (flat_map (p_writes p) (p_inst p c))) as [Iw|Nw'].
        -- right. apply occ_in in Iw as Ow. destruct (crossing (p_writes p) r k (p_inst p c) (occ r (flat_map D l1) + occ r (placed phi c))) as (j1 & j & j2 & Ej & Q); [lia|].
           apply in_flat_map. exists j. split; [rewrite Ej; apply in_app_iff; right; left; auto|]. destruct (Rd c j1 j j2 Ic' Ej) as (_ & _ & ->). apply numbered_in. rewrite !occ_app, Ebc. lia.
        -- left. rewrite (occ_0 _ _ Nw') in Ec. assert (Pc : In r (placed phi c)) by (unfold D, definitions in Ic; apply in_app_iff in Ic as [|]; [auto|contradiction]). rewrite (nodup_occ r _ (fresh_placed phi c F) Pc) in Ec.
           assert (I0 : In (r, k) (map fst (s_phi st0 c))) by (rewrite (Ph c Ic'); apply numbered_in; rewrite (nodup_occ r (placed phi c) (fresh_placed phi c F) Pc), Ebc; fold D; lia).
           apply in_map_iff in I0 as (e & Ee & I0). apply in_map_iff. exists e. split; [auto|]. apply De; [auto|]. rewrite Ee. cbn [fst]. intros (j1 & j & j2 & Ej & Wj & _). apply Nw'. apply in_flat_map. exists j. split; [rewrite Ej; apply in_app_iff; right; left; auto|auto].
      * intros k' I. unfold block_names in I. rewrite Ed in Ec. pose proof (occ_pos r (flat_map (p_writes p) (p_inst p c))). apply in_app_iff in I as [I|I].
        -- assert (I0 : In (r, k') (map fst (s_phi st0 c))) by (apply in_map_iff in I as (e & Ee & I); apply in_map_iff; eauto). rewrite (Ph c Ic') in I0. apply numbered_in in I0. rewrite Ebc in I0. fold D in I0. lia.
        -- apply in_flat_map in I as (j & Ij & I). apply in_split in Ij as (j1 & j2 & Ej). destruct (Rd c j1 j j2 Ic' Ej) as (_ & _ & Q). rewrite Q in I. apply numbered_in in I. rewrite !occ_app, Ebc in I. fold D in I. rewrite Ej, flat_map_app in Ec. cbn [flat_map] in Ec. rewrite !occ_app in Ec. pose proof (occ_pos r (flat_map (p_writes p) j2)). lia.
Qed.
