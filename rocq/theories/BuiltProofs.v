(** The built control flow graph is made with the library's operations, also when its
    conditional nodes have been removed; which nodes remain then. *)
From Verif Require Import ListLemmas.
From Verif Require Export CfgProofs RemoveCondProofs.

Lemma foldM_holds {S A} (f : S -> A -> result S) (P : S -> Prop) : (forall s a s', P s -> f s a = Ok s' -> P s') -> forall l s s', P s -> foldM f l s = Ok s' -> P s'.
Proof. intros H. induction l as [|a l IH]; intros s s' Hs E; cbn [foldM] in E; [congruence|]. destruct (f s a) as [s1|] eqn:E1; [|discriminate]. cbn [bind] in E. eauto. Qed.
Definition made (st : cfg) : Prop := constructed (c_graph st).
Lemma made_new st k l st' n : made st -> new_node st k l = Ok (st', n) -> made st'.
Proof. unfold made, new_node. intros H E. destruct (add_node (c_graph st) (c_last st + 1)) as [g|] eqn:A; destruct k, l; cbn [bind] in E; try discriminate; injection E as <- _; cbn [c_graph]; eapply con_node; eauto. Qed.
Lemma made_edge st u v st' : made st -> edge_add st u v = Ok st' -> made st'.
Proof. unfold made, edge_add. intros H E. destruct (add_edge (c_graph st) u v) as [g|] eqn:A; [|discriminate]. injection E as <-. eapply con_edge; eauto. Qed.
Lemma made_once st u v st' : made st -> edge_add_once st u v = Ok st' -> made st'.
Proof. unfold edge_add_once. intros H E. destruct (has_edge (c_graph st) u v); [congruence|eapply made_edge; eauto]. Qed.
Lemma made_set st b l : made st -> made (set_instructions st b l).
Proof. unfold made, set_instructions. destruct (dget (c_blocks st) b) as [[k m]|]; auto. Qed.
Lemma made_pending st i b : made st -> made (add_pending st i b).
Proof. auto. Qed.
Lemma made_multiple st d ss st' : made st -> add_multiple_edges st d ss = Ok st' -> made st'.
Proof. unfold add_multiple_edges. apply (foldM_holds _ made). intros s a s'. apply made_once. Qed.
Ltac made_step := match goal with
  | H : Ok _ = Ok _ |- _ => injection H; clear H; intros; subst
  | H : Err _ = Ok _ |- _ => discriminate
  | H : bind ?r _ = Ok _ |- _ => let E := fresh "E" in destruct r eqn:E; [cbn [bind] in H|discriminate]
  | H : (let '(_, _) := ?x in _) = Ok _ |- _ => destruct x
  | H : (match ?x with _ => _ end) = Ok _ |- _ => destruct x eqn:?
  | H : new_node ?a _ _ = Ok (?b, _), M : made ?a |- _ => lazymatch goal with X : made b |- _ => fail | _ => pose proof (made_new _ _ _ _ _ M H) end
  | H : edge_add ?a _ _ = Ok ?b, M : made ?a |- _ => lazymatch goal with X : made b |- _ => fail | _ => pose proof (made_edge _ _ _ _ M H) end
  | H : edge_add_once ?a _ _ = Ok ?b, M : made ?a |- _ => lazymatch goal with X : made b |- _ => fail | _ => pose proof (made_once _ _ _ _ M H) end
  | H : add_multiple_edges ?a _ _ = Ok ?b, M : made ?a |- _ => lazymatch goal with X : made b |- _ => fail | _ => pose proof (made_multiple _ _ _ _ M H) end
  end.
Lemma made_split st s b i st' : made st -> split_node st s b i = Ok st' -> made st'.
Proof.
  unfold split_node. intros M E. destruct (nindex i (instructions st s)) as [j|]; [|discriminate]. cbn [bind] in E.
  match type of E with bind ?r _ = _ => destruct r as [st1|] eqn:E1; [cbn [bind] in E|discriminate] end. apply (made_edge _ _ _ _) with (2 := E). destruct j as [|j]; [congruence|].
  destruct (new_node st KBlock (firstn (S j) (instructions st s))) as [[st2 up]|] eqn:E2; [cbn [bind] in E1|discriminate]. apply made_new in E2; [|auto]. pose proof (made_set _ s (skipn (S j) (instructions st s)) E2) as M3.
  set (st3 := set_instructions st2 s _) in *. clearbody st3. destruct (incidents (c_graph st3) s) as [ins|]; [cbn [bind] in E1|discriminate].
  match type of E1 with bind ?r _ = _ => destruct r as [st4|] eqn:E4; [cbn [bind] in E1|discriminate] end. apply (made_edge _ _ _ _) with (2 := E1).
  apply (foldM_holds _ made) with (3 := E4); [|auto]. clear. intros a n a' M E. destruct (del_edge (c_graph a) n s) as [g|] eqn:D; [cbn [bind] in E|discriminate]. apply (made_edge _ _ _ _) with (2 := E). unfold made. cbn. eapply con_del; eauto.
Qed.
Lemma made_conditional p st i c cb lc st' r : made st -> branch_conditional p st i c cb lc = Ok (st', r) -> made st'.
Proof. unfold branch_conditional. intros M E. repeat made_step; auto. Qed.
Lemma made_branch p st cb br i c e st' r : made st -> branch_instruction p st cb br i c e = Ok (st', r) -> made st'.
Proof.
  unfold branch_instruction. intros M E.
  match type of E with bind ?r _ = _ => destruct r as [[st1 b]|] eqn:E1; [cbn [bind] in E|discriminate] end. assert (M1 : made st1) by (destruct br; repeat made_step; auto). clear E1.
  match type of E with bind ?r _ = _ => destruct r as [st2|] eqn:E2; [cbn [bind] in E|discriminate] end. assert (M2 : made st2) by (destruct cb; repeat made_step; auto). clear E2.
  destruct (branch_to p c) as [t|]; [|repeat made_step; auto]. destruct (node_with_inst st2 t) as [d|].
  - destruct (split_node st2 d b t) as [st3|] eqn:E3; [|discriminate]. cbn [bind] in E. apply made_split in E3; [|auto]. congruence.
  - cbn [bind] in E. injection E as <- _. now apply made_pending.
Qed.
Lemma made_loop p e ic s s' : made (fst s) -> build_step p e s ic = Ok s' -> made (fst s').
Proof.
  destruct s as [st [[cb lf] lc]], ic as [i c]. cbn [fst]. unfold build_step. intros M E. destruct (ci_undefined c); [injection E as <-; auto|].
  destruct (match lf with Some f => ci_cond c =? f | None => false end).
  - destruct (ci_branch c).
    + destruct (branch_instruction p st (Some cb) None i c e) as [[st1 cb']|] eqn:B; [cbn [bind] in E|discriminate]. apply made_branch in B; [|auto]. destruct cb'; [|discriminate]. injection E as <-. auto.
    + destruct (dget (c_pending st) (Z.of_nat i)); [|injection E as <-; now apply made_set]. repeat made_step; auto.
  - destruct (branch_conditional p st i c cb lc) as [[st1 [cb1 lc1]]|] eqn:B; [cbn [bind] in E|discriminate]. apply made_conditional in B; [|auto]. destruct (ci_branch c); cbn [bind] in E; [|injection E as <-; auto].
    destruct (branch_instruction p st1 None (Some cb1) i c e) as [[st2 r]|] eqn:B2; [cbn [bind] in E|discriminate]. apply made_branch in B2; [|auto]. injection E as <-. auto.
Qed.
Lemma build_made p st : build p = Ok st -> made st.
Proof.
  destruct p as [|c0 p0]; [intros [= <-]; apply con_empty|]. unfold build. set (p := c0 :: p0). intros E.
  destruct (new_node (Cfg g_empty [] 0 []) KRoot []) as [[st1 r]|] eqn:E1; [cbn [bind] in E|discriminate]. apply made_new in E1; [|apply con_empty].
  destruct (new_node st1 KEnd []) as [[st2 e]|] eqn:E2; [cbn [bind] in E|discriminate]. apply made_new in E2; [|auto].
  destruct (foldM (build_step p e) (combine (seq 0 (length p)) p) (st2, (r, None, None))) as [[st3 [[cb lf] lc]]|] eqn:E3; [cbn [bind] in E|discriminate].
  apply made_once in E; [auto|]. apply (foldM_holds _ (fun s => made (fst s))) in E3; [auto| |auto]. intros s a s'. apply made_loop.
Qed.

Lemma remove_made c g g' : constructed g -> remove_conditionals c g = Ok g' -> constructed g'.
Proof.
  unfold remove_conditionals. intros C E. match type of E with bind ?r _ = _ => destruct r as [[g1 rem]|] eqn:E1; [cbn [bind] in E|discriminate] end.
  assert (C1 : constructed g1).
  { apply (foldM_holds _ (fun s => constructed (fst s))) in E1; [auto| |auto]. clear. intros [g rem] n [g' rem'] C E. cbn [fst] in *. destruct (c n); [|congruence]. destruct (bypass g n) as [g1|] eqn:B; [|discriminate]. cbn [bind] in E. injection E as -> _.
    unfold bypass in B. destruct (incidents g n) as [ps|]; [cbn [bind] in B|discriminate]. revert B. apply (foldM_holds _ constructed); [|auto]. clear. intros g p g' C B. destruct (neighbors g n) as [ss|]; [cbn [bind] in B|discriminate].
    revert B. apply (foldM_holds _ constructed); [|auto]. clear. intros g s g' C B. destruct (has_edge g p s); [congruence|eapply con_edge; eauto]. }
  revert E. apply (foldM_holds _ constructed); [|auto]. intros. eapply con_remove; eauto.
Qed.

(** The nodes left, in their order. *)
Lemma filter_filter {A} (f h : A -> bool) l : filter f (filter h l) = filter (fun x => h x && f x) l.
Proof. induction l as [|x l IH]; [auto|]. cbn [filter]. destruct (h x); cbn [andb filter]; destruct (f x); rewrite ?IH; auto. Qed.
Lemma del_nodes_order ns : forall g g', wf g -> NoDup ns -> Forall (node g) ns -> foldM del_node ns g = Ok g' -> g_nodes g' = filter (fun x => negb (zmem x ns)) (g_nodes g).
Proof.
  induction ns as [|n ns IH]; intros g g' W N F E; cbn [foldM] in E.
  - injection E as <-. clear. induction (g_nodes g) as [|x l IH]; [auto|]. change (x :: l = x :: filter (fun x => negb (zmem x [])) l). f_equal. exact IH.
  - inversion F as [|? ? Fn Fs]; subst. apply NoDup_cons_iff in N as [Nn N]. destruct (del_node_ok g n W Fn) as (g1 & E1 & W1 & N1 & _). rewrite E1 in E. cbn [bind] in E.
    rewrite (IH g1 g' W1 N) with (2 := E).
    + rewrite N1, filter_filter. apply filter_ext. intros x. cbn [zmem existsb]. unfold zmem. destruct (x =? n); reflexivity.
    + rewrite Forall_forall in *. intros x I. unfold node. rewrite N1. apply filter_In. split; [now apply Fs|]. destruct (Z.eqb_spec x n); [subst; contradiction|auto].
Qed.
Lemma remove_nodes c g g' : wf g -> remove_conditionals c g = Ok g' -> g_nodes g' = filter (fun x => negb (c x)) (g_nodes g).
Proof.
  intros W E. unfold remove_conditionals in E. destruct (bypass_all c g (g_nodes g) W) as (g1 & E1 & W1 & N1 & H1); [apply Forall_forall; auto|]. rewrite E1 in E. cbn [bind] in E.
  apply del_nodes_order in E; [|auto|apply NoDup_filter, W|apply Forall_forall; intros x I; unfold node; rewrite N1; apply filter_In in I; apply I].
  rewrite E, N1. apply filter_ext_in. intros x I. f_equal. destruct (c x) eqn:Cx.
  - apply zmem_in, filter_In. auto.
  - destruct (zmem x (filter c (g_nodes g))) eqn:Z; [|auto]. apply zmem_in, filter_In in Z. destruct Z. congruence.
Qed.
