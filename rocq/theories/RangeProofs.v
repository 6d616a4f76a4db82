(** A renaming that ends has only met known storages. *)
From Verif Require Import ListLemmas CfgProps.
From Verif Require Export SsaTotalProofs.

Lemma keys_storage {A} (d : dict A) v x : dkeys d = zrange 0 storage_count -> dget d v = Some x -> storage v.
Proof. intros K E. apply in_zrange. change 20 with storage_count. rewrite <- K. apply dget_some_in. eauto. Qed.
Lemma new_range st v st' k : full st -> new_name st v = Ok (st', k) -> full st' /\ storage v.
Proof.
  intros [K1 K2] E. unfold new_name, dget_r in E. destruct (dget (s_counter st) v) as [i|] eqn:E1; [|discriminate]. cbn [bind] in E. destruct (dget (s_stack st) v) as [l|] eqn:E2; [|discriminate]. cbn [bind] in E. injection E as <- _.
  assert (S : storage v) by (eapply keys_storage; eauto). split; [|auto]. split; cbn [s_counter s_stack]; apply set_keys; auto; apply in_zrange; exact S.
Qed.
Lemma top_range st v t : full st -> top st v = Ok t -> storage v.
Proof. intros [_ K] E. unfold top, dget_r in E. destruct (dget (s_stack st) v) eqn:D; [|discriminate]. eapply keys_storage; eauto. Qed.
Lemma pop_range st v st' : full st -> pop st v = Ok st' -> full st'.
Proof. intros [K1 K2] E. unfold pop, dget_r in E. destruct (dget (s_stack st) v) as [l|] eqn:D; [|discriminate]. cbn [bind] in E. destruct l; [discriminate|]. injection E as <-. split; [exact K1|]. cbn [s_stack]. apply set_keys; auto. rewrite <- K2. apply dget_some_in. eauto. Qed.
Lemma foldM_each {S A} (f : S -> A -> result S) (P : S -> Prop) (Q : A -> Prop) : (forall s a s', P s -> f s a = Ok s' -> P s' /\ Q a) -> forall l s s', P s -> foldM f l s = Ok s' -> P s' /\ Forall Q l.
Proof. intros H. induction l as [|a l IH]; intros s s' Ps E; cbn [foldM] in E; [injection E as <-; auto|]. destruct (f s a) as [s1|] eqn:E1; [|discriminate]. cbn [bind] in E. destruct (H _ _ _ Ps E1) as [P1 Q1]. destruct (IH _ _ P1 E). auto. Qed.
Lemma phis_range st n st' : full st -> rename_phis st n = Ok st' -> full st'.
Proof.
  unfold rename_phis. intros F E. match type of E with bind ?r _ = _ => destruct r as [[st1 d]|] eqn:E1; [cbn [bind] in E|discriminate] end. injection E as <-. change (full st1).
  apply (foldM_each _ (fun s => full (fst s)) (fun _ => True)) in E1; [apply E1| |exact F]. clear. intros [st d] e [st' d'] F E. destruct (new_name st (fst (fst e))) as [[s k]|] eqn:N; [|discriminate]. cbn [bind] in E. injection E as <- _. split; [|auto]. exact (proj1 (new_range _ _ _ _ F N)).
Qed.
Lemma inst_range p st i st' : full st -> rename_inst p st i = Ok st' -> full st' /\ Forall storage (p_reads p i ++ p_writes p i).
Proof.
  unfold rename_inst. intros F E. destruct (foldM (rename_read i) (p_reads p i) st) as [st1|] eqn:E1; [cbn [bind] in E|discriminate].
  apply (foldM_each _ full storage) in E1; [|clear; intros s r s' F E|exact F].
  - destruct E1 as [F1 R]. apply (foldM_each _ full storage) in E; [|clear; intros s w s' F E|exact F1].
    + destruct E as [F2 W]. split; [exact F2|]. apply Forall_app. auto.
    + unfold rename_write in E. destruct (new_name s w) as [[s1 k]|] eqn:N; [|discriminate]. cbn [bind] in E. injection E as <-. destruct (new_range _ _ _ _ F N). auto.
  - unfold rename_read in E. destruct (top s r) as [t|] eqn:T; [|discriminate]. cbn [bind] in E. split; [|eapply top_range; eauto]. destruct (nmember (r, t) (s_read s i)); injection E as <-; exact F.
Qed.
Lemma fill_range st b st' : full st -> fill_phis st b = Ok st' -> full st'.
Proof. unfold fill_phis. intros F E. match type of E with bind ?r _ = _ => destruct r as [d|]; [cbn [bind] in E|discriminate] end. injection E as <-. exact F. Qed.
Lemma roll_range p st n st' : full st -> roll_back p st n = Ok st' -> full st'.
Proof.
  unfold roll_back. intros F E. apply (foldM_each _ full (fun _ => True)) in E; [apply E| |exact F]. clear. intros st e st' F E. split; [|auto]. cbv zeta in E. match type of E with bind ?r _ = _ => destruct r as [st1|] eqn:E1; [cbn [bind] in E|discriminate] end.
  apply (pop_range _ _ _) with (2 := E). apply (foldM_each _ full (fun _ => True)) in E1; [apply E1| |exact F]. clear. intros s i s' F E. split; [|auto]. destruct (zmem _ _); [eapply pop_range; eauto|injection E as <-; exact F].
Qed.
(** The blocks below a block in the tree. *)
Inductive below (children : Z -> list Z) : Z -> Z -> Prop :=
| below_self n : below children n n
| below_child n c d : In c (children n) -> below children c d -> below children n d.
Lemma node_range p h : forall fuel st n st', full st -> rename_node fuel p h st n = Ok st' -> full st' /\ forall d i x, below (h_children h) n d -> In i (p_inst p d) -> In x (p_reads p i ++ p_writes p i) -> storage x.
Proof.
  induction fuel as [|fuel IH]; intros st n st' F E; [discriminate|]. cbn [rename_node] in E.
  destruct (rename_phis st n) as [s1|] eqn:E1; [cbn [bind] in E|discriminate]. apply phis_range in E1; [|exact F].
  destruct (foldM (rename_inst p) (p_inst p n) s1) as [s2|] eqn:E2; [cbn [bind] in E|discriminate]. apply (foldM_each _ full (fun i => Forall storage (p_reads p i ++ p_writes p i))) in E2; [|intros; eapply inst_range; eauto|exact E1]. destruct E2 as [F2 H2].
  destruct (foldM fill_phis (h_succ h n) s2) as [s3|] eqn:E3; [cbn [bind] in E|discriminate]. apply (foldM_each _ full (fun _ => True)) in E3; [|intros; split; [eapply fill_range; eauto|auto]|exact F2]. destruct E3 as [F3 _].
  destruct (foldM (rename_node fuel p h) (h_children h n) s3) as [s4|] eqn:E4; [cbn [bind] in E|discriminate].
  apply (foldM_each _ full (fun c => forall d i x, below (h_children h) c d -> In i (p_inst p d) -> In x (p_reads p i ++ p_writes p i) -> storage x)) in E4; [|intros; eapply IH; eauto|exact F3]. destruct E4 as [F4 H4].
  split; [eapply roll_range; eauto|]. intros d i x B I X. inversion B as [|? c ? Ic B']; subst.
  - rewrite Forall_forall in H2. specialize (H2 i I). rewrite Forall_forall in H2. auto.
  - rewrite Forall_forall in H4. eapply H4; eauto.
Qed.
Lemma full_start phi : full (Ssa (map (fun v => (v, 0)) (zrange 0 storage_count)) (map (fun v => (v, [0])) (zrange 0 storage_count)) phi (fun _ => []) (fun _ => [])).
Proof. split; reflexivity. Qed.
Scheme preorder_ind2 := Minimality for preorder Sort Prop with preorders_ind2 := Minimality for preorders Sort Prop.
Combined Scheme preorder_both from preorder_ind2, preorders_ind2.
Lemma preorder_below ch : (forall n l, preorder ch n l -> forall x, In x l -> below ch n x) /\ (forall ns l, preorders ch ns l -> forall x, In x l -> exists n, In n ns /\ below ch n x).
Proof.
  apply (preorder_both ch (fun n l => forall x, In x l -> below ch n x) (fun ns l => forall x, In x l -> exists n, In n ns /\ below ch n x)).
  - intros n l _ IH x [<-|I]; [apply below_self|]. destruct (IH x I) as (c & Ic & B). eapply below_child; eauto.
  - intros x [].
  - intros n ns l l' _ IH1 _ IH2 x I. apply in_app_iff in I as [I|I]; [exists n; split; [left; auto|auto]|]. destruct (IH2 x I) as (m & Im & B). exists m. split; [right; auto|auto].
Qed.
