(** C155 and C119: how many unknown targets a graph has. *)
From Verif Require Import ListLemmas.
From Verif Require Export CfgEdgeProps CfgCountProps.
From Coq Require Import ZifyBool ZifyNat Permutation.

(** ** Specification *)
(** The branches whose target is no instruction of the program. *)
Definition branch_outside (program : list cinst) (i : nat) : Prop := defined_at program i /\ branches program i /\ goes_outside program i.
Definition unknown_targets (st : cfg) : list Z := filter (unknown_node st) (g_nodes (c_graph st)).

(** ** Proofs *)
Definition is_unknown (e : Z * (kind * list nat)) : bool := match fst (snd e) with KUnknown => true | _ => false end.
Definition unknowns (st : cfg) : nat := length (filter is_unknown (c_blocks st)).
Definition fresh (st : cfg) : Prop := forall b, In b (dkeys (c_blocks st)) -> b <= c_last st.
Definition adds (m : nat) (st st' : cfg) : Prop := fresh st -> fresh st' /\ unknowns st' = (unknowns st + m)%nat.
Lemma adds_refl st : adds 0 st st. Proof. intros F. split; [exact F|lia]. Qed.
Lemma adds_trans a b st st1 st2 : adds a st st1 -> adds b st1 st2 -> adds (a + b) st st2.
Proof. intros A B F. destruct (A F) as [F1 E1]. destruct (B F1) as [F2 E2]. split; [exact F2|lia]. Qed.
Lemma adds_trans0 b st st1 st2 : adds 0 st st1 -> adds b st1 st2 -> adds b st st2.
Proof. apply (adds_trans 0 b). Qed.
Lemma adds_0 b st st1 st2 : adds b st st1 -> adds 0 st1 st2 -> adds b st st2.
Proof. intros A B. pose proof (adds_trans _ _ _ _ _ A B) as C. rewrite Nat.add_0_r in C. exact C. Qed.
Lemma adds_blocks st st' : c_blocks st' = c_blocks st -> c_last st' = c_last st -> adds 0 st st'.
Proof. intros B L F. unfold fresh, unknowns. rewrite B, L. split; [exact F|lia]. Qed.
Lemma dset_fresh {A} (d : dict A) k v : ~ In k (dkeys d) -> dset d k v = d ++ [(k, v)].
Proof. induction d as [|[k' v'] d IH]; intros N; [reflexivity|]. cbn [dset dkeys map fst In] in *. destruct (Z.eqb_spec k' k) as [->|_]; [exfalso; apply N; left; reflexivity|]. cbn [app]. rewrite <- IH by (intros I; apply N; right; exact I). destruct (Z.eqb_spec k k') as [->|]; [exfalso; apply N; left; reflexivity|reflexivity]. Qed.
Definition one (K : kind) : nat := match K with KUnknown => 1 | _ => 0 end.
Lemma new_node_adds st K l st' n : new_node st K l = Ok (st', n) -> adds (one K) st st'.
Proof. intros E F. assert (X : exists g, st' = Cfg g (dset (c_blocks st) (c_last st + 1) (K, l)) (c_last st + 1) (c_pending st)).
  { unfold new_node in E. destruct K, l; try discriminate E; destruct (add_node (c_graph st) (c_last st + 1)) as [g|]; try discriminate E; cbn [bind] in E; injection E as <- <-; eauto. }
  destruct X as (g & ->). assert (N : ~ In (c_last st + 1) (dkeys (c_blocks st))) by (intros I; apply F in I; lia). unfold fresh, unknowns. cbn [c_blocks c_last]. rewrite dset_fresh by exact N. split.
  - intros b. unfold dkeys. rewrite map_app, in_app_iff. intros [I|[<-|[]]]; [apply F in I; lia|cbn [fst]; lia].
  - rewrite filter_app, app_length. cbn [filter is_unknown snd fst]. destruct K; reflexivity. Qed.
Lemma edge_adds st u v st' : edge_add st u v = Ok st' -> adds 0 st st'.
Proof. unfold edge_add. destruct (add_edge (c_graph st) u v); [|discriminate]. cbn [bind]. intros E. injection E as <-. apply adds_blocks; reflexivity. Qed.
Lemma edge_once_adds st u v st' : edge_add_once st u v = Ok st' -> adds 0 st st'.
Proof. unfold edge_add_once. destruct (has_edge _ _ _); [intros E; injection E as <-; apply adds_refl|apply edge_adds]. Qed.
Lemma dset_count (d : dict (kind * list nat)) b k l l' : dget d b = Some (k, l') -> length (filter is_unknown (dset d b (k, l))) = length (filter is_unknown d) /\ dkeys (dset d b (k, l)) = dkeys d.
Proof. induction d as [|[b' [k' x]] d IH]; intros E; [discriminate|]. cbn [dget dset] in *. destruct (Z.eqb_spec b b') as [->|n].
  - injection E as -> ->. split; [|reflexivity]. cbn [filter is_unknown snd fst]. destruct k; reflexivity.
  - destruct (IH E) as [A B]. cbn [filter dkeys map fst]. fold (dkeys d) (dkeys (dset d b (k, l))). rewrite B. split; [|reflexivity]. destruct (is_unknown _); cbn [length]; rewrite A; reflexivity. Qed.
Lemma set_adds st b l : adds 0 st (set_instructions st b l).
Proof. unfold set_instructions. destruct (dget (c_blocks st) b) as [[k l']|] eqn:E; [|apply adds_refl]. intros F. destruct (dset_count (c_blocks st) b k l l' E) as [A B]. unfold fresh, unknowns. cbn [c_blocks c_last]. rewrite A, B. split; [exact F|lia]. Qed.
Lemma fold_adds {A} (f : cfg -> A -> result cfg) l : (forall st a st', f st a = Ok st' -> adds 0 st st') -> forall st st', foldM f l st = Ok st' -> adds 0 st st'.
Proof. intros H. induction l as [|a l IH]; intros st st' E; cbn [foldM] in E; [injection E as <-; apply adds_refl|]. destruct (f st a) as [st1|] eqn:E1; [|discriminate]. cbn [bind] in E. eapply adds_trans0; [eapply H, E1|eapply IH, E]. Qed.
Lemma multiple_adds st d ss st' : add_multiple_edges st d ss = Ok st' -> adds 0 st st'.
Proof. apply fold_adds. intros ? ? ?. apply edge_once_adds. Qed.
Lemma split_adds st s b i st' : split_node st s b i = Ok st' -> adds 0 st st'.
Proof. unfold split_node. destruct (nindex i (instructions st s)) as [index|]; [|discriminate]. cbn [bind]. destruct index as [|index]; [apply edge_adds|].
  destruct (new_node st KBlock (firstn (S index) (instructions st s))) as [[st1 up]|] eqn:E1; [|discriminate]. cbn [bind].
  destruct (incidents (c_graph (set_instructions st1 s (skipn (S index) (instructions st s)))) s) as [ins|]; [|discriminate]. cbn [bind]. 
  destruct (foldM _ ins _) as [st2|] eqn:E2; [|discriminate]. cbn [bind]. destruct (edge_add st2 up s) as [st3|] eqn:E3; [|discriminate]. cbn [bind]. intros E4.
  eapply adds_trans0; [exact (new_node_adds _ _ _ _ _ E1)|]. eapply adds_trans0; [apply set_adds|]. eapply adds_trans0; [|eapply adds_trans0; [exact (edge_adds _ _ _ _ E3)|exact (edge_adds _ _ _ _ E4)]].
  refine (fold_adds _ ins _ _ _ E2). clear. intros st0 a st0' E. destruct (del_edge (c_graph st0) a s) as [g|]; [|discriminate]. cbn [bind] in E. eapply adds_trans0; [|exact (edge_adds _ _ _ _ E)]. apply adds_blocks; reflexivity. Qed.
Ltac opens := match goal with H : bind ?x _ = Ok _ |- _ => let E := fresh "E" in destruct x eqn:E; [|discriminate H]; cbn [bind] in H end.
Lemma conditional_adds p st i c cb lc st' r : branch_conditional p st i c cb lc = Ok (st', r) -> adds 0 st st'.
Proof. unfold branch_conditional. destruct (new_node st KBlock [i]) as [[st1 b]|] eqn:E1; [|discriminate]. cbn [bind]. intros H. eapply adds_trans0; [exact (new_node_adds _ _ _ _ _ E1)|]. clear E1. destruct (ci_cond c =? cond_always).
  - destruct (if last_is_branch p st1 cb then Ok st1 else edge_add st1 cb b) as [st2|] eqn:E2; [|discriminate]. cbn [bind] in H. destruct (match lc with Some l => edge_add_once st2 l b | None => Ok st2 end) as [st3|] eqn:E3; [|discriminate]. cbn [bind] in H. injection H as <- _.
    eapply adds_trans0; [destruct (last_is_branch p st1 cb); [injection E2 as <-; apply adds_refl|exact (edge_adds _ _ _ _ E2)]|]. destruct lc; [exact (edge_once_adds _ _ _ _ E3)|injection E3 as <-; apply adds_refl].
  - destruct (new_node st1 KCond []) as [[st2 nc]|] eqn:E2; [|discriminate]. cbn [bind] in H. eapply adds_trans0; [exact (new_node_adds _ _ _ _ _ E2)|].
    destruct (edge_add st2 nc b) as [st3|] eqn:E3; [|discriminate]. cbn [bind] in H. eapply adds_trans0; [exact (edge_adds _ _ _ _ E3)|].
    destruct (if last_is_branch p st3 cb then Ok st3 else edge_add st3 cb nc) as [st4|] eqn:E4; [|discriminate]. cbn [bind] in H. eapply adds_trans0; [destruct (last_is_branch p st3 cb); [injection E4 as <-; apply adds_refl|exact (edge_adds _ _ _ _ E4)]|].
    destruct (match lc with Some l => edge_add_once st4 l nc | None => Ok st4 end) as [st5|] eqn:E5; [|discriminate]. cbn [bind] in H. eapply adds_trans0; [destruct lc; [exact (edge_once_adds _ _ _ _ E5)|injection E5 as <-; apply adds_refl]|].
    destruct (dget (c_pending st5) (Z.of_nat i)) as [ss|]; [destruct (add_multiple_edges st5 nc ss) as [st6|] eqn:E6; [|discriminate]; cbn [bind] in H; injection H as <- _; exact (multiple_adds _ _ _ _ E6)|cbn [bind] in H; injection H as <- _; apply adds_refl]. Qed.
Definition opens_one (p : list cinst) (c : cinst) : nat := match branch_to p c with None => 1 | Some _ => 0 end.
Lemma branch_adds p st cb b i c e st' r : branch_instruction p st cb b i c e = Ok (st', r) -> adds (opens_one p c) st st'.
Proof. unfold branch_instruction. destruct (match b with Some b => Ok (st, b) | None => new_node st KBlock [i] end) as [[st1 b1]|] eqn:E1; [|discriminate]. cbn [bind]. intros H.
  eapply adds_trans0; [destruct b; [injection E1 as <- _; apply adds_refl|exact (new_node_adds _ _ _ _ _ E1)]|]. clear E1.
  destruct (match cb with Some cb => edge_add st1 cb b1 | None => Ok st1 end) as [st2|] eqn:E2; [|discriminate]. cbn [bind] in H. eapply adds_trans0; [destruct cb; [exact (edge_adds _ _ _ _ E2)|injection E2 as <-; apply adds_refl]|]. clear E2.
  unfold opens_one. destruct (branch_to p c) as [t|].
  - destruct (node_with_inst st2 t) as [tn|]; [destruct (split_node st2 tn b1 t) as [st3|] eqn:E3; [|discriminate]; cbn [bind] in H; injection H as <- _; exact (split_adds _ _ _ _ _ E3)|cbn [bind] in H; injection H as <- _; apply adds_blocks; reflexivity].
  - destruct (new_node st2 KUnknown []) as [[st3 u]|] eqn:E3; [|discriminate]. cbn [bind] in H. destruct (edge_add st3 b1 u) as [st4|] eqn:E4; [|discriminate]. cbn [bind] in H. destruct (edge_add st4 u e) as [st5|] eqn:E5; [|discriminate]. cbn [bind] in H. injection H as <- _.
    eapply adds_0; [exact (new_node_adds _ _ _ _ _ E3)|]. eapply adds_trans0; [exact (edge_adds _ _ _ _ E4)|exact (edge_adds _ _ _ _ E5)]. Qed.
Definition opens_inst (p : list cinst) (c : cinst) : nat := if negb (ci_undefined c) && ci_branch c then opens_one p c else 0.
Lemma step_adds p e s ic s' : build_step p e s ic = Ok s' -> adds (opens_inst p (snd ic)) (fst s) (fst s').
Proof. destruct s as [st [[cb lf] lc]]. destruct ic as [i c]. unfold build_step, opens_inst. cbn [snd fst]. destruct (ci_undefined c); [intros E; injection E as <-; apply adds_refl|]. cbn [negb andb].
  destruct (match lf with Some f => ci_cond c =? f | None => false end).
  - destruct (ci_branch c).
    + destruct (branch_instruction p st (Some cb) None i c e) as [[st1 cb1]|] eqn:E1; [|discriminate]. cbn [bind]. destruct cb1; [|discriminate]. intros E. injection E as <-. exact (branch_adds _ _ _ _ _ _ _ _ _ E1).
    + destruct (dget (c_pending st) (Z.of_nat i)) as [ss|].
      * destruct (new_node st KBlock [i]) as [[st1 b]|] eqn:E1; [|discriminate]. cbn [bind]. destruct (add_multiple_edges st1 b ss) as [st2|] eqn:E2; [|discriminate]. cbn [bind]. destruct (edge_add st2 cb b) as [st3|] eqn:E3; [|discriminate]. cbn [bind]. intros E. injection E as <-.
        eapply adds_trans0; [exact (new_node_adds _ _ _ _ _ E1)|]. eapply adds_trans0; [exact (multiple_adds _ _ _ _ E2)|exact (edge_adds _ _ _ _ E3)].
      * intros E. injection E as <-. apply set_adds.
  - destruct (branch_conditional p st i c cb lc) as [[st1 [b lc1]]|] eqn:E1; [|discriminate]. cbn [bind]. destruct (ci_branch c).
    + destruct (branch_instruction p st1 None (Some b) i c e) as [[st2 x]|] eqn:E2; [|discriminate]. cbn [bind]. intros E. injection E as <-. eapply adds_trans0; [exact (conditional_adds _ _ _ _ _ _ _ _ E1)|exact (branch_adds _ _ _ _ _ _ _ _ _ E2)].
    + cbn [bind]. intros E. injection E as <-. exact (conditional_adds _ _ _ _ _ _ _ _ E1). Qed.
Lemma loop_adds p e : forall l s s', foldM (build_step p e) l s = Ok s' -> adds (list_sum (map (fun ic => opens_inst p (snd ic)) l)) (fst s) (fst s').
Proof. induction l as [|ic l IH]; intros s s' E; cbn [foldM] in E; [injection E as <-; apply adds_refl|]. destruct (build_step p e s ic) as [s1|] eqn:E1; [|discriminate]. cbn [bind] in E. cbn [map list_sum fold_right]. eapply adds_trans; [exact (step_adds _ _ _ _ _ E1)|exact (IH _ _ E)]. Qed.
(** The number of unknown nodes of the graph of the first [n] instructions. *)
Lemma count_unknowns p n st : (n <= length p)%nat -> p <> [] -> build_count p (Z.of_nat n) = Ok st -> unknowns st = list_sum (map (opens_inst p) (firstn n p)).
Proof. intros L Np. destruct p as [|c0 p0]; [congruence|]. set (p := c0 :: p0) in *. unfold build_count. fold p. destruct (Z.eqb_spec (Z.of_nat n) (-1)) as [X|_]; [lia|].
  destruct (new_node (Cfg g_empty [] 0 []) KRoot []) as [[st1 r]|] eqn:E1; [|discriminate]. cbn [bind]. destruct (new_node st1 KEnd []) as [[st2 e]|] eqn:E2; [|discriminate]. cbn [bind]. rewrite positions_n by exact L.
  destruct (foldM _ _ _) as [[st3 [[cb lf] lc]]|] eqn:E3; [|discriminate]. cbn [bind]. intros E4.
  assert (A : adds (list_sum (map (opens_inst p) (firstn n p))) (Cfg g_empty [] 0 []) st).
  { eapply adds_trans0; [exact (new_node_adds _ _ _ _ _ E1)|]. eapply adds_trans0; [exact (new_node_adds _ _ _ _ _ E2)|]. eapply adds_0; [|exact (edge_once_adds _ _ _ _ E4)]. apply loop_adds in E3. cbn [fst] in E3.
    assert (M : map (fun ic : nat * cinst => opens_inst p (snd ic)) (combine (seq 0 n) (firstn n p)) = map (opens_inst p) (firstn n p)).
    { clear. generalize (opens_inst p) as f. intros f. generalize 0%nat. revert n. induction p as [|c p IH]; intros [|n] k; try reflexivity. cbn [firstn seq combine map snd]. f_equal. apply IH. }
    rewrite M in E3. exact E3. }
  destruct (A ltac:(intros b [])) as [_ U]. rewrite U. reflexivity. Qed.
(** The blocks of a state of the construction are the nodes of its graph. *)
Lemma nodes_unknown (d : dict (kind * list nat)) : NoDup (dkeys d) -> length (filter (fun b => match dget d b with Some (KUnknown, _) => true | _ => false end) (dkeys d)) = length (filter is_unknown d).
Proof. intros N. assert (G : forall l, incl l d -> length (filter (fun b => match dget d b with Some (KUnknown, _) => true | _ => false end) (dkeys l)) = length (filter is_unknown l)); [|apply G, incl_refl].
  induction l as [|[b [k x]] l IH]; intros I; [reflexivity|]. cbn [dkeys map filter fst is_unknown snd]. fold (dkeys l). rewrite (dget_nodup_in d b (k, x) N) by (apply I; left; reflexivity). specialize (IH ltac:(intros y Hy; apply I; right; exact Hy)). destruct k; cbn [length]; rewrite IH; reflexivity. Qed.
Lemma targets_unknowns st : good st -> length (unknown_targets st) = unknowns st.
Proof. intros G. destruct G as (W & _ & K). unfold unknown_targets, unknowns, unknown_node. change (g_nodes (c_graph st)) with (nodes st). rewrite <- K. apply nodes_unknown. rewrite K. apply W. Qed.
Lemma opens_spec p i c : nth_error p i = Some c -> opens_inst p c = 1%nat <-> branch_outside p i.
Proof. intros E. unfold opens_inst, opens_one. split.
  - destruct (ci_undefined c) eqn:U; [discriminate|]. destruct (ci_branch c) eqn:B; [|discriminate]. cbn [negb andb]. destruct (branch_to p c) eqn:T; [discriminate|]. intros _.
    assert (D : defined_at p i) by (exists c; auto). split; [exact D|]. split; [exists c; auto|]. apply target_none; [apply is_defined_iff, D|]. unfold target. rewrite E. exact T.
  - intros ((c1 & E1 & U) & (c2 & E2 & B) & (c3 & E3 & O)). assert (c1 = c) as -> by congruence. assert (c2 = c) as -> by congruence. assert (c3 = c) as -> by congruence. rewrite U, B. cbn [negb andb]. destruct (branch_to p c) as [t|] eqn:T; [|reflexivity]. exfalso.
    destruct (branch_to_jumps p i c t E U B T) as (c4 & d & X1 & X2 & X3 & X4 & X5 & _). assert (c4 = c) as -> by congruence. exact (O _ _ X4 X5). Qed.
Lemma opens_le p c : (opens_inst p c <= 1)%nat.
Proof. unfold opens_inst, opens_one. destruct (_ && _); [|lia]. destruct (branch_to p c); lia. Qed.
Lemma sum_positions (p : list cinst) f : (forall c, (f c <= 1)%nat) -> list_sum (map f p) = length (filter (fun i => match nth_error p i with Some c => (f c =? 1)%nat | None => false end) (seq 0 (length p))).
Proof. intros H. induction p as [|c p IH] using rev_ind; [reflexivity|]. rewrite map_app, list_sum_app, IH, app_length. cbn [length]. rewrite Nat.add_1_r, seq_S, filter_app, app_length. cbn [map list_sum fold_right filter Nat.add].
  rewrite nth_error_app2, Nat.sub_diag by lia. cbn [nth_error]. f_equal.
  - f_equal. apply filter_ext_in. intros i I. apply in_seq in I. rewrite nth_error_app1 by lia. reflexivity.
  - specialize (H c). destruct (Nat.eqb_spec (f c) 1); cbn [length]; lia. Qed.

(** Every branch out of the program has its own unknown target: whatever list of them is made,
    it is as long as the list of the unknown nodes. *)
Theorem C155_unknown : forall program st (outside : list nat), build program = Ok st -> NoDup outside -> (forall i, In i outside <-> branch_outside program i) ->
  NoDup (unknown_targets st) /\ length (unknown_targets st) = length outside.
Proof. intros program st outside E N H. assert (program = [] \/ program <> []) as [->|Np] by (destruct program; [left; reflexivity|right; discriminate]).
  { injection E as <-. split; [constructor|]. destruct outside as [|i l]; [reflexivity|]. destruct (proj1 (H i) ltac:(left; reflexivity)) as ((c & X & _) & _). destruct i; discriminate X. }
  destruct (CfgProofs3.build_ok program Np) as (st' & E' & X & _). assert (st' = st) as -> by congruence.
  pose proof (co_good _ _ _ _ X) as G.
  split; [apply NoDup_filter, (good_nodup st G)|]. rewrite (targets_unknowns st G). destruct (C119_all program) as (_ & Al). rewrite E in Al. rewrite (count_unknowns program _ st (le_n _) Np Al), firstn_all, sum_positions by apply opens_le.
  apply Permutation_length, NoDup_Permutation; [apply NoDup_filter, seq_NoDup|exact N|]. intros i. rewrite H, filter_In, in_seq. destruct (nth_error program i) as [c|] eqn:Ec.
  - rewrite Nat.eqb_eq, <- (opens_spec program i c Ec). assert (i < length program)%nat by (apply nth_error_Some; congruence). intuition lia.
  - split; [intros [_ Y]; discriminate|]. intros ((c & Y & _) & _). congruence. Qed.
Print Assumptions C155_unknown.
(** The converse of C119: a branch behind the part is always noticed. *)
Theorem C119_exactly : forall program n, (0 < n <= length program)%nat -> build_count program (Z.of_nat n) = build (firstn n program) <-> stays_within program n.
Proof. intros program n L. split; [|apply C119_prefix_partial, L]. intros E. assert (Np : program <> []) by (intros ->; cbn in L; lia).
  set (part := firstn n program) in *. assert (Lp : length part = n) by (unfold part; rewrite firstn_length; lia). assert (Pp : part <> []) by (intros X; rewrite X in Lp; cbn in Lp; lia).
  destruct (CfgProofs3.build_ok part Pp) as (st & Eb & _). rewrite Eb in E. pose proof (count_unknowns program n st (proj2 L) Np E) as U1. destruct (C119_all part) as (_ & Al). rewrite Eb in Al. pose proof (count_unknowns part _ st (le_n _) Pp Al) as U2. rewrite firstn_all in U2. fold part in U1. rewrite U1 in U2. clear U1 Al E Eb st.
  assert (F : forall c t, branch_to part c = Some t -> (t < n)%nat /\ exists d, nth_error program t = Some d /\ ci_jump c = Some (ci_address d)).
  { intros c t. unfold branch_to. destruct (ci_jump c) as [j|]; [|discriminate]. intros X. apply branch_to_from_spec in X as (t0 & d & Et & Ed & -> & _). cbn in Et. subst t0. assert (t < n)%nat by (rewrite <- Lp; apply nth_error_Some; congruence). split; [assumption|]. exists d. split; [|reflexivity]. rewrite <- Ed. symmetry. apply nth_firstn. assumption. }
  assert (Le : forall c, (opens_inst program c <= opens_inst part c)%nat).
  { intros c. unfold opens_inst. destruct (_ && _); [|lia]. unfold opens_one. destruct (branch_to part c) as [t|] eqn:T; [|destruct (branch_to program c); lia]. destruct (F c t T) as (_ & d & Ed & Ej). destruct (branch_to program c) eqn:T2; [lia|]. exfalso. unfold branch_to in T2. rewrite Ej in T2. clear - T2 Ed. revert T2 Ed. generalize 0%nat. revert t. induction program as [|x l IH]; intros t k T2 Ed; [destruct t; discriminate|]. cbn [branch_to_from] in T2. destruct t as [|t]; [injection Ed as ->; rewrite Z.eqb_refl in T2; discriminate|]. destruct (ci_address d =? ci_address x); [discriminate|]. exact (IH t _ T2 Ed). }
  assert (Eq : forall c, In c part -> opens_inst program c = opens_inst part c).
  { clear - U2 Le. revert U2. generalize part at 1 3 4 as l. induction l as [|x l IH]; intros U c I; [destruct I|]. cbn [map list_sum fold_right] in U. assert (S : (list_sum (map (opens_inst program) l) <= list_sum (map (opens_inst part) l))%nat) by (clear - Le; induction l as [|y l IH]; [cbn; lia|]; cbn [map list_sum fold_right]; fold (list_sum (map (opens_inst program) l)) (list_sum (map (opens_inst part) l)); specialize (Le y); lia).
    fold (list_sum (map (opens_inst program) l)) in U. fold (list_sum (map (opens_inst part) l)) in U. pose proof (Le x) as Lx. destruct I as [<-|I]; [lia|]. apply IH; [lia|exact I]. }
  intros i t Li (c & d & Ec & Uc & Bc & Ed & Ej & Mn). assert (Ip : In c part) by (apply (nth_error_In part i); unfold part; rewrite nth_firstn by exact Li; exact Ec). specialize (Eq c Ip).
  assert (Z0 : opens_inst program c <> 1%nat). { intros X. apply (opens_spec program i c Ec) in X. destruct X as (_ & _ & (c' & E' & O)). assert (c' = c) as -> by congruence. exact (O _ _ Ed Ej). }
  rewrite Eq in Z0. unfold opens_inst, opens_one in Z0. rewrite Uc, Bc in Z0. cbn [negb andb] in Z0. destruct (branch_to part c) as [t'|] eqn:T; [|congruence]. destruct (F c t' T) as (L' & d' & Ed' & Ej').
  destruct (Nat.le_gt_cases t t') as [X|X]; [lia|]. exfalso. apply (Mn t' d' X Ed'). congruence. Qed.
Print Assumptions C119_exactly.
Definition out_example := [plain 0; jump 14 4 400; jump 0 8 400; plain 12; jump 14 16 0].
Example C155_example : exists st, build out_example = Ok st /\ branch_outside out_example 1 /\ branch_outside out_example 2 /\ ~ branch_outside out_example 4 /\ length (unknown_targets st) = 2%nat.
Proof. exists (match build out_example with Ok s => s | Err _ => Cfg g_empty [] 0 [] end). split; [vm_compute; reflexivity|].
  assert (N : forall t d, nth_error out_example t = Some d -> Some 400 <> Some (ci_address d)). { intros t d E. do 5 (destruct t as [|t]; [injection E as <-; discriminate|]). destruct t; discriminate. }
  split; [repeat split; eexists; split; [reflexivity|reflexivity|reflexivity|reflexivity|reflexivity|exact N]|]. split; [repeat split; eexists; split; [reflexivity|reflexivity|reflexivity|reflexivity|reflexivity|exact N]|].
  split; [|vm_compute; reflexivity]. intros (_ & _ & c & E & H). injection E as <-. apply (H 0%nat (plain 0)); reflexivity. Qed.
Example C119_exactly_example : stays_within out_example 3 /\ build_count out_example 3 = build (firstn 3 out_example) /\ ~ stays_within [jump 14 0 8; plain 4; plain 8] 2.
Proof. assert (S : stays_within out_example 3). { intros i t L (c & d & E & _ & B & Ed & Ej & _). exfalso. do 5 (destruct t as [|t]; [injection Ed as <-; do 3 (destruct i as [|i]; [injection E as <-; discriminate|]); lia|]). destruct t; discriminate. }
  split; [exact S|]. split; [vm_compute; reflexivity|]. intros H. specialize (H 0%nat 2%nat ltac:(lia)). enough (2 < 2)%nat by lia. apply H. exists (jump 14 0 8), (plain 8). repeat (split; [reflexivity|]). intros t' d' L E. destruct t' as [|[|t']]; [| |lia]; injection E as <-; discriminate. Qed.
