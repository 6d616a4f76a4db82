(** The order of the renaming is the preorder of the dominator tree; arguments of phi
    functions; dead phi functions. *)
From Verif Require Import ListLemmas.
From Verif Require Export FrontierProofs SsaProofs2.
From Coq Require Import ZifyBool ZifyNat.

Scheme preorder_mut := Induction for preorder Sort Prop with preorders_mut := Induction for preorders Sort Prop.
Combined Scheme preorder_ind2 from preorder_mut, preorders_mut.

(** ** The dominator tree *)
Lemma dominators_chain R root idom : idoms R root idom -> forall x a b, reachable R root x -> dominates R root a x -> dominates R root b x -> dominates R root a b \/ dominates R root b a.
Proof.
  intros (I1 & I2) x a b. rewrite reachable_way. intros (l & P). remember (length l) as n. revert x l P Heqn. induction n as [n IH] using lt_wf_ind. intros x l P -> A B.
  destruct (Z.eq_dec x root) as [->|N]; [apply dominates_root in A, B; subst; left; apply self_dominates|].
  destruct (I2 x) as (i & Ei); [apply reachable_way; eauto|auto|]. apply I1 in Ei as [_ Im].
  apply (dominates_up R root a x i Im) in A as [->|A]; [right; auto|]. apply (dominates_up R root b x i Im) in B as [->|B]; [left; apply (dominates_up R root a x i Im); auto|].
  destruct (way_cut _ _ _ _ i P) as (l' & P' & _ & L). { exact (proj2 (proj1 Im) _ ltac:(eassumption)). } eapply (IH (length l')); eauto. apply L. intros ->. destruct Im as [[Q _] _]. congruence.
Qed.
Definition tree_of (idom : Z -> option Z) (ch : Z -> list Z) : Prop := (forall d v, In v (ch d) <-> idom v = Some d) /\ forall d, NoDup (ch d).
Lemma child_dom R root idom ch n c : idoms R root idom -> tree_of idom ch -> In c (ch n) -> reachable R root c /\ immediate R root n c.
Proof. intros (I1 & _) (T & _) I. apply T in I. now apply I1. Qed.
Lemma order_dominated R root idom ch : idoms R root idom -> tree_of idom ch ->
  (forall n l, preorder ch n l -> reachable R root n -> Forall (fun x => reachable R root x /\ dominates R root n x) l) /\
  (forall ns l, preorders ch ns l -> Forall (reachable R root) ns -> Forall (fun x => exists c, In c ns /\ reachable R root x /\ dominates R root c x) l).
Proof.
  intros Id T. apply preorder_ind2.
  - intros n l P IH Rn. constructor; [split; [auto|apply self_dominates]|]. assert (Fc : Forall (reachable R root) (ch n)) by (apply Forall_forall; intros c C; eapply child_dom; eauto).
    specialize (IH Fc). eapply Forall_impl; [|exact IH]. intros x (c & C & Rx & Dx). split; [auto|]. eapply dominates_trans; [|exact Dx]. destruct (child_dom _ _ _ _ _ _ Id T C) as [_ [[_ Q] _]]. exact Q.
  - intros _. constructor.
  - intros n ns l l' P IH P' IH' F. inversion F; subst. apply Forall_app. split; (eapply Forall_impl; [|eauto]); [intros x [Q1 Q2]; exists n; split; [left; auto|auto]|intros x (c & C & Q); exists c; split; [right; auto|auto]].
Qed.
Lemma order_nodup R root idom ch : idoms R root idom -> tree_of idom ch ->
  (forall n l, preorder ch n l -> reachable R root n -> NoDup l) /\
  (forall ns l, preorders ch ns l -> forall m, incl ns (ch m) -> NoDup ns -> NoDup l).
Proof.
  intros Id T. pose proof (order_dominated _ _ _ _ Id T) as [D1 D2]. apply preorder_ind2.
  - intros n l P IH Rn. assert (Fc : Forall (reachable R root) (ch n)) by (apply Forall_forall; intros c C; eapply child_dom; eauto). constructor; [|apply (IH n); [apply incl_refl|apply T]].
    intros I. specialize (D2 _ _ P Fc). rewrite Forall_forall in D2. destruct (D2 n I) as (c & C & _ & Dc). destruct (child_dom _ _ _ _ _ _ Id T C) as [Rc [[Q1 Q2] _]]. apply (no_mutual R root n c); auto.
  - intros. constructor.
  - intros n ns l l' P IH P' IH' m Il Nd. inversion Nd as [|? ? Nn Nd']; subst. assert (Cn : In n (ch m)) by (apply Il; left; auto). destruct (child_dom _ _ _ _ _ _ Id T Cn) as [Rn In_].
    assert (Il' : incl ns (ch m)) by (intros x X; apply Il; right; auto). specialize (IH Rn). specialize (IH' m Il' Nd'). specialize (D1 _ _ P Rn).
    assert (Fc : Forall (reachable R root) ns) by (apply Forall_forall; intros c C; apply (child_dom _ _ _ _ m c Id T); auto). specialize (D2 _ _ P' Fc).
    assert (G : forall a b : list Z, NoDup a -> NoDup b -> (forall x, In x a -> In x b -> False) -> NoDup (a ++ b)).
    { clear. induction a as [|x a IHa]; intros b Na Nb H; cbn [app]; [auto|]. inversion Na; subst. constructor; [rewrite in_app_iff; intros [|]; [auto|apply (H x); [left; auto|auto]]|]. apply IHa; auto. intros y Y1 Y2. apply (H y); [right; auto|auto]. }
    apply G; auto. intros x X1 X2. rewrite Forall_forall in D1, D2. destruct (D1 x X1) as [Rx Dx]. destruct (D2 x X2) as (c & C & _ & Dc).
    destruct (child_dom _ _ _ _ m c Id T (Il' c C)) as [Rc Ic]. assert (Nc : n <> c) by (intros ->; contradiction).
    destruct (dominators_chain R root idom Id x n c Rx Dx Dc) as [Q|Q].
    + destruct Ic as [[Q1 Q2] Q3]. assert (Dm : dominates R root n m) by (apply Q3; split; auto). destruct In_ as [[K1 K2] _]. apply (no_mutual R root n m); auto.
    + destruct In_ as [[Q1 Q2] Q3]. assert (Dm : dominates R root c m) by (apply Q3; split; auto). destruct Ic as [[K1 K2] _]. apply (no_mutual R root c m); auto.
Qed.
Lemma order_closed ch : (forall n l, preorder ch n l -> In n l /\ forall x y, In x l -> In y (ch x) -> In y l) /\ (forall ns l, preorders ch ns l -> incl ns l /\ forall x y, In x l -> In y (ch x) -> In y l).
Proof.
  apply preorder_ind2.
  - intros n l P (A & B). split; [left; auto|]. intros x y [<-|X] Y; right; [auto|eauto].
  - split; [intros x []|intros x y []].
  - intros n ns l l' P (A & B) P' (A' & B'). split.
    + intros x [<-|X]; apply in_app_iff; auto.
    + intros x y X Y. apply in_app_iff in X as [X|X]; apply in_app_iff; eauto.
Qed.
Lemma order_all R root idom ch l : idoms R root idom -> tree_of idom ch -> preorder ch root l -> forall v, In v l <-> reachable R root v.
Proof.
  intros Id T P v. split.
  - intros I. pose proof (proj1 (order_dominated _ _ _ _ Id T) _ _ P (or_introl eq_refl)) as F. rewrite Forall_forall in F. now apply F.
  - rewrite reachable_way. intros (w & W). remember (length w) as n. revert v w W Heqn. induction n as [n IH] using lt_wf_ind. intros v w W ->. destruct (order_closed ch) as [C _]. destruct (C _ _ P) as [Cr Cc].
    destruct (Z.eq_dec v root) as [->|N]; [auto|]. pose proof Id as (I1 & I2). destruct (I2 v) as (i & Ei); [apply reachable_way; eauto|auto|]. pose proof (proj1 (I1 v i) Ei) as [_ Im].
    apply (Cc i); [|now apply T]. destruct (way_cut _ _ _ _ i W) as (w' & W' & _ & L). { exact (proj2 (proj1 Im) _ ltac:(eassumption)). } eapply (IH (length w')); eauto. apply L. destruct Im as [[Q _] _]. congruence.
Qed.

(** ** Enough fuel *)
Definition fueled {A} (r : result A) : Prop := r <> Err OutOfFuel.
Lemma fueled_bind {A B} (r : result A) (f : A -> result B) : fueled r -> (forall a, r = Ok a -> fueled (f a)) -> fueled (let* x := r in f x).
Proof. unfold fueled. destruct r as [a|e]; cbn [bind]; intros H K; [apply K; auto|congruence]. Qed.
Lemma fueled_foldM {S A} (f : S -> A -> result S) l : (forall s a, In a l -> fueled (f s a)) -> forall s, fueled (foldM f l s).
Proof.
  induction l as [|a l IH]; intros H s; cbn [foldM]; [discriminate|]. apply fueled_bind; [apply H; left; auto|]. intros s' _. apply IH. intros; apply H; right; auto.
Qed.
Lemma fueled_dget {A} (d : dict A) k : fueled (dget_r d k).
Proof. unfold dget_r. destruct (dget d k); discriminate. Qed.
Lemma fueled_top st v : fueled (top st v).
Proof. unfold top. apply fueled_bind; [apply fueled_dget|]. intros [|]; discriminate. Qed.
Lemma fueled_pop st v : fueled (pop st v).
Proof. unfold pop. apply fueled_bind; [apply fueled_dget|]. intros [|]; discriminate. Qed.
Lemma fueled_new st v : fueled (new_name st v).
Proof. unfold new_name. apply fueled_bind; [apply fueled_dget|]. intros i _. apply fueled_bind; [apply fueled_dget|]. discriminate. Qed.
Lemma fueled_phis st n : fueled (rename_phis st n).
Proof.
  unfold rename_phis. apply fueled_bind; [|intros [? ?]; discriminate]. apply fueled_foldM. intros [s d] e _. apply fueled_bind; [apply fueled_new|]. intros [? ?]; discriminate.
Qed.
Lemma fueled_inst p st i : fueled (rename_inst p st i).
Proof.
  unfold rename_inst. apply fueled_bind; [apply fueled_foldM; intros; apply fueled_bind; [apply fueled_top|discriminate]|]. intros s _. apply fueled_foldM. intros. apply fueled_bind; [apply fueled_new|]. intros [? ?]; discriminate.
Qed.
Lemma fueled_fill st b : fueled (fill_phis st b).
Proof.
  unfold fill_phis. apply fueled_bind; [|discriminate]. induction (s_phi st b) as [|e l IH]; cbn [mapM]; [discriminate|].
  apply fueled_bind; [apply fueled_bind; [apply fueled_top|discriminate]|]. intros. apply fueled_bind; [auto|discriminate].
Qed.
Lemma fueled_roll p st n : fueled (roll_back p st n).
Proof.
  unfold roll_back. apply fueled_foldM. intros s e _. apply fueled_bind; [|intros; apply fueled_pop]. apply fueled_foldM. intros s' i _. destruct (zmem _ _); [apply fueled_pop|discriminate].
Qed.
Lemma fueled_node R root p h (nodes : list Z) : idoms R root (h_idom h) -> tree_of (h_idom h) (h_children h) -> (forall x, reachable R root x -> In x nodes) ->
  forall fuel n seen st, reachable R root n -> NoDup seen -> incl seen nodes -> (forall x, In x seen -> strictly_dominates R root x n) -> (length nodes <= fuel + length seen)%nat -> fueled (rename_node fuel p h st n).
Proof.
  intros Id T Nod. induction fuel as [|fuel IH]; intros n seen st Rn Ns Is Sn Lf.
  { exfalso. assert (L : (length (n :: seen) <= length nodes)%nat).
    { apply NoDup_incl_length; [constructor; [|auto]|intros x [<-|X]; auto]. intros X. destruct (Sn n X) as [Q _]. congruence. } cbn [length] in L. lia. }
  assert (Es : rename_node (S fuel) p h st n = let* st := rename_phis st n in let* st := foldM (rename_inst p) (p_inst p n) st in let* st := foldM fill_phis (h_succ h n) st in
    let* st := foldM (rename_node fuel p h) (h_children h n) st in roll_back p st (last (h_children h n) n)) by reflexivity.
  rewrite Es. clear Es. apply fueled_bind; [apply fueled_phis|]. intros s1 _. apply fueled_bind; [apply fueled_foldM; intros; apply fueled_inst|]. intros s2 _. apply fueled_bind; [apply fueled_foldM; intros; apply fueled_fill|]. intros s3 _.
  apply fueled_bind; [|intros; apply fueled_roll]. apply fueled_foldM. intros s c C. destruct (child_dom _ _ _ _ _ _ Id T C) as [Rc [[Q1 Q2] _]].
  apply (IH c (n :: seen)); auto.
  - constructor; [|auto]. intros X. destruct (Sn n X) as [Q _]. congruence.
  - intros x [<-|X]; auto.
  - intros x [<-|X]; [split; auto|]. destruct (Sn x X) as [K1 K2]. split; [|eapply dominates_trans; eauto]. intros ->. apply (no_mutual R root c n); auto.
  - cbn [length]. lia.
Qed.

(** ** Arguments of the phi functions *)
(** The arguments for variable [v] in block [b]: its number at the end of each
    predecessor, in the order in which these are renamed. *)
Fixpoint exits (p : sprog) (vars succ : Z -> list Z) (c : Z -> Z) (order : list Z) (b v : Z) : list name :=
  match order with
  | [] => []
  | n :: order => let c' := fun x => c x + occ x (definitions p vars n) in repeat (v, c' v) (count_occ Z.eq_dec (succ n) b) ++ exits p vars succ c' order b v
  end.
Lemma exits_ext p vars vars' succ : (forall b, vars b = vars' b) -> forall order c c' b v, (forall x, c x = c' x) -> exits p vars succ c order b v = exits p vars' succ c' order b v.
Proof.
  intros Hv. induction order as [|n order IH]; intros c c' b v Hc; cbn [exits]; [auto|]. unfold definitions. rewrite Hv, Hc. f_equal. apply IH. intros x. now rewrite Hc.
Qed.
Lemma fills_args : forall l st b e', In e' (s_phi (fold_left pfill l st) b) -> exists e, In e (s_phi st b) /\ fst e' = fst e /\ snd e' = snd e ++ repeat (fst (fst e), cnt st (fst (fst e))) (count_occ Z.eq_dec l b).
Proof.
  induction l as [|n l IH]; intros st b e' I; cbn [fold_left] in I; [exists e'; cbn; rewrite app_nil_r; auto|]. apply IH in I as (e & I & F & S). destruct (fill_step st n) as (A1 & _ & _ & A4 & A5 & _). cbn [count_occ].
  destruct (Z.eq_dec n b) as [->|N].
  - rewrite A5 in I. apply in_map_iff in I as (e0 & <- & I). exists e0. cbn [fst snd] in *. split; [auto|]. split; [auto|]. rewrite S, A1, <- app_assoc. reflexivity.
  - rewrite A4 in I by congruence. exists e. split; [auto|]. split; [auto|]. now rewrite S, A1.
Qed.
Lemma block_args p h st n b e' : In e' (s_phi (pblock p h st n) b) -> exists e, In e (s_phi st b) /\ fst (fst e') = fst (fst e) /\
  snd e' = snd e ++ repeat (fst (fst e), cnt st (fst (fst e)) + occ (fst (fst e)) (definitions p (pv st) n)) (count_occ Z.eq_dec (h_succ h n) b).
Proof.
  unfold pblock. intros I. apply fills_args in I as (e1 & I & F & S). destruct (insts_step p (p_inst p n) (pphis st n)) as (B1 & B2 & _). rewrite B2 in I. destruct (phis_step st n) as (A1 & _ & _ & A4 & A5 & A6).
  assert (C : forall x, cnt (fold_left (pinst p) (p_inst p n) (pphis st n)) x = cnt st x + occ x (definitions p (pv st) n)) by (intros x; rewrite B1, A1; unfold definitions; rewrite occ_app; lia).
  rewrite C in S. destruct (Z.eq_dec b n) as [->|N]; [|rewrite A4 in I by auto; exists e1; rewrite F; auto].
  assert (G : forall (l m : phis), map snd l = map snd m -> map fst l = numbered (cnt st) (map (fun e => fst (fst e)) m) -> In e1 l -> exists e, In e m /\ fst (fst e1) = fst (fst e) /\ snd e1 = snd e).
  { clear. intros l m E1 E2. assert (E3 : map (fun e => fst (fst e)) l = map (fun e => fst (fst e)) m) by (rewrite <- (map_map fst fst), E2; apply numbered_fst). clear E2.
    revert m E1 E3. induction l as [|a l IH]; intros [|a' m] E1 E3 I; try discriminate; [destruct I|]. injection E1 as Q1 Q2. injection E3 as Q3 Q4. destruct I as [->|I]; [exists a'; split; [left; auto|auto]|].
    destruct (IH m Q2 Q4 I) as (e & J & K). exists e. split; [right; auto|auto]. }
  destruct (G _ _ A6 A5 I) as (e & J & K1 & K2). exists e. split; [auto|]. rewrite F, S, K1, K2. auto.
Qed.
Lemma blocks_args p h : forall order st b e', In e' (s_phi (fold_left (pblock p h) order st) b) -> exists e, In e (s_phi st b) /\ fst (fst e') = fst (fst e) /\
  snd e' = snd e ++ exits p (pv st) (h_succ h) (cnt st) order b (fst (fst e)).
Proof.
  induction order as [|n order IH]; intros st b e' I; cbn [fold_left] in I; [exists e'; cbn; rewrite app_nil_r; auto|]. apply IH in I as (e1 & I & F & S). apply block_args in I as (e & I & F1 & S1).
  exists e. split; [auto|]. split; [congruence|]. rewrite S, S1, F1, <- app_assoc. cbn [exits]. do 2 f_equal. destruct (block_step p h st n) as (A1 & A2 & _). apply exits_ext; auto.
Qed.
Lemma exits_in p vars succ : forall order c b v k, In k (exits p vars succ c order b v) -> exists l1 n l2, order = l1 ++ n :: l2 /\ In b (succ n) /\ k = (v, c v + occ v (flat_map (definitions p vars) (l1 ++ [n]))).
Proof.
  induction order as [|n order IH]; intros c b v k I; cbn [exits] in I; [destruct I|]. apply in_app_iff in I as [I|I].
  - exists [], n, order. split; [auto|]. split.
    + destruct (count_occ Z.eq_dec (succ n) b) eqn:Q; [destruct I|]. apply (count_occ_In Z.eq_dec). lia.
    + apply repeat_spec in I. cbn [app flat_map]. now rewrite app_nil_r.
  - apply IH in I as (l1 & m & l2 & -> & Q1 & ->). exists (n :: l1), m, l2. split; [auto|]. split; [auto|]. cbn [app flat_map]. rewrite occ_app. f_equal. lia.
Qed.
