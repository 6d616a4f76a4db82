(** C119: the graph of a part of the program. *)
From Verif Require Import ListLemmas.
From Verif Require Export CfgFlowProps CfgCountModel.
From Coq Require Import ZifyBool ZifyNat.

(** ** Specification *)
(** No branch among the first [n] instructions has its target behind them. *)
Definition stays_within (program : list cinst) (n : nat) : Prop := forall i t, (i < n)%nat -> jumps_to program i t -> (t < n)%nat.

(** ** Proofs *)
Lemma nth_firstn {A} (l : list A) : forall n j, (j < n)%nat -> nth_error (firstn n l) j = nth_error l j.
Proof. induction l as [|a l IH]; intros [|n] j J; [lia|reflexivity|lia|]. destruct j; [reflexivity|]. cbn. apply IH. lia. Qed.
Definition near (p p' : list cinst) (st : cfg) : Prop := forall b j, In j (instructions st b) -> nth_error p j = nth_error p' j.
Lemma last_agree p p' st b : near p p' st -> last_is_branch p st b = last_is_branch p' st b.
Proof. intros H. unfold last_is_branch. destruct (rev (instructions st b)) as [|i l] eqn:E; [reflexivity|]. rewrite (H b i); [reflexivity|]. apply in_rev. rewrite E. left. reflexivity. Qed.
Lemma near_node p p' st K l st' n : near p p' st -> (forall j, In j l -> nth_error p j = nth_error p' j) -> new_node st K l = Ok (st', n) -> near p p' st'.
Proof. intros H Hl E. assert (X : exists g, st' = Cfg g (dset (c_blocks st) (c_last st + 1) (K, l)) (c_last st + 1) (c_pending st)).
  { unfold new_node in E. destruct K, l; try discriminate E; destruct (add_node (c_graph st) (c_last st + 1)) as [g|]; try discriminate E; cbn [bind] in E; injection E as <- <-; eauto. }
  destruct X as (g & ->). intros b j. unfold instructions. cbn [c_blocks]. rewrite dget_dset. destruct (b =? c_last st + 1); [apply Hl|]. apply H. Qed.
Lemma near_edge p p' st u v st' : near p p' st -> edge_add st u v = Ok st' -> near p p' st'.
Proof. intros H. unfold edge_add. destruct (add_edge (c_graph st) u v); [|discriminate]. cbn [bind]. intros E. injection E as <-. exact H. Qed.
Lemma conditional_agree p p' st k c cb lc : near p p' st -> nth_error p k = nth_error p' k -> branch_conditional p st k c cb lc = branch_conditional p' st k c cb lc.
Proof. intros H Hk. unfold branch_conditional. destruct (new_node st KBlock [k]) as [[st1 b]|] eqn:E1; [|reflexivity]. cbn [bind].
  assert (H1 : near p p' st1) by (eapply near_node; [exact H| |exact E1]; intros j [<-|[]]; exact Hk). destruct (ci_cond c =? cond_always).
  - rewrite (last_agree p p') by exact H1. reflexivity.
  - destruct (new_node st1 KCond []) as [[st2 nc]|] eqn:E2; [|reflexivity]. cbn [bind]. assert (H2 : near p p' st2) by (eapply near_node; [exact H1| |exact E2]; intros j []).
    destruct (edge_add st2 nc b) as [st3|] eqn:E3; [|reflexivity]. cbn [bind]. rewrite (last_agree p p') by (eapply near_edge; eassumption). reflexivity. Qed.
Lemma instruction_agree p p' st cb b k c e : branch_to p c = branch_to p' c -> branch_instruction p st cb b k c e = branch_instruction p' st cb b k c e.
Proof. intros H. unfold branch_instruction. rewrite H. reflexivity. Qed.
Lemma inv_near p p' k s : Inv p k s -> (forall j, (j < k)%nat -> nth_error p j = nth_error p' j) -> near p p' (fst s).
Proof. destruct s as [st [[cb lf] lc]]. intros (C & _) H b j J. cbn [fst] in J. apply H. destruct (co_seg _ _ _ _ C b) as (a0 & b0 & Eq). assert (X : In j (defined p k)) by (rewrite Eq; apply in_app_iff; right; apply in_app_iff; left; exact J). apply defined_in in X. lia. Qed.
Lemma step_agree p p' k s c : Inv p k s -> (forall j, (j <= k)%nat -> nth_error p j = nth_error p' j) -> (ci_undefined c = false -> ci_branch c = true -> branch_to p c = branch_to p' c) ->
  build_step p 2 s (k, c) = build_step p' 2 s (k, c).
Proof.
  intros HI H Hb. pose proof (inv_near p p' k s HI (fun j J => H j (Nat.lt_le_incl _ _ J))) as Nr. destruct s as [st [[cb lf] lc]]. cbn [fst] in Nr. unfold build_step.
  destruct (ci_undefined c) eqn:U; [reflexivity|]. destruct (match lf with Some f => ci_cond c =? f | None => false end).
  - destruct (ci_branch c) eqn:Br; [|reflexivity]. now rewrite (instruction_agree p p') by auto.
  - rewrite (conditional_agree p p') by auto. destruct (branch_conditional p' st k c cb lc) as [[st1 [b lc1]]|]; [|reflexivity]. cbn [bind]. destruct (ci_branch c) eqn:Br; [|reflexivity]. now rewrite (instruction_agree p p') by auto.
Qed.
Lemma loop_agree p p' : forall rest k s, firstn (length p') p = p' -> p' = firstn k p' ++ rest -> (k + length rest = length p')%nat -> Inv p k s ->
  (forall i c, (i < length p')%nat -> nth_error p' i = Some c -> ci_undefined c = false -> ci_branch c = true -> branch_to p c = branch_to p' c) ->
  foldM (build_step p 2) (combine (seq k (length rest)) rest) s = foldM (build_step p' 2) (combine (seq k (length rest)) rest) s.
Proof.
  induction rest as [|c rest IH]; intros k s Ep E L H Hb; [reflexivity|]. cbn [length seq combine foldM]. cbn [length] in L.
  assert (Lk : length (firstn k p') = k) by (rewrite firstn_length; lia). assert (Ec : nth_error p' k = Some c) by (rewrite E, nth_error_app2, Lk, Nat.sub_diag by lia; auto).
  assert (Ag : forall j, (j < length p')%nat -> nth_error p j = nth_error p' j). { intros j J. transitivity (nth_error (firstn (length p') p) j); [symmetry; apply nth_firstn; exact J|now rewrite Ep]. }
  rewrite <- (step_agree p p' k s c H); [|intros j J; apply Ag; lia|intros U B; apply (Hb k c); auto; lia].
  destruct (build_step_ok p k s c H) as (s1 & E1 & H1 & _); [rewrite Ag by lia; exact Ec|]. rewrite E1. cbn [bind]. apply IH; auto; [|lia].
  rewrite E at 1. assert (X : firstn (S k) p' = firstn k p' ++ [c]). { rewrite E at 1. rewrite firstn_app, Lk. rewrite firstn_all2 by lia. replace (S k - k)%nat with 1%nat by lia. reflexivity. }
  rewrite X, <- app_assoc. reflexivity.
Qed.
Lemma start : exists st1 st2, new_node (Cfg g_empty [] 0 []) KRoot [] = Ok (st1, 1) /\ new_node st1 KEnd [] = Ok (st2, 2) /\ forall p, Inv p 0 (st2, (1, None, None)).
Proof.
  destruct (new_node_ok _ KRoot [] good_start) as (st1 & E1 & G1 & L1 & P1 & N1 & Ed1 & I1 & K1); [discriminate|cbn; lia|]. cbn [c_last] in *.
  destruct (new_node_ok st1 KEnd [] G1) as (st2 & E2 & G2 & L2 & P2 & N2 & Ed2 & I2 & K2); [discriminate|lia|].
  rewrite L1 in *. change (0 + 1) with 1 in *. change (1 + 1) with 2 in *. exists st1, st2. split; [exact E1|]. split; [exact E2|]. intros p.
  assert (I0 : forall x, instructions st2 x = []) by (intros x; rewrite I2, I1; destruct (x =? 2), (x =? 1); reflexivity).
  split; [|split; [rewrite N2, N1; cbn; auto|split; [discriminate|congruence]]]. apply Core; [auto|lia|..].
  - unfold insts. fold (nodes st2). assert (flat_map (instructions st2) (nodes st2) = []) as ->; [|constructor]. clear -I0. induction (nodes st2) as [|x l IH]; [auto|]. cbn [flat_map]. rewrite I0. exact IH.
  - intros x. rewrite I0. apply segment_nil.
  - intros j _. rewrite P2, P1. reflexivity.
  - intros x. rewrite I0, K2, K1. split; [|congruence]. destruct (x =? 2); [discriminate|]. destruct (x =? 1); [discriminate|]. cbn. discriminate.
  - intros x j. rewrite I0. intros [].
  - intros j; lia.
Qed.
(** The loop over the positions is the loop over the instructions. *)
Lemma zrange_0 n : zrange 0 (Z.of_nat n) = map Z.of_nat (seq 0 n).
Proof. unfold zrange. rewrite Z.sub_0_r, Nat2Z.id. apply map_ext. intros a. lia. Qed.
Lemma positions p e : forall rest k s, (forall j, (j < length rest)%nat -> nth_error rest j = nth_error p (k + j)) ->
  foldM (fun s i => let* c := nth_r p (Z.to_nat i) in build_step p e s (Z.to_nat i, c)) (map Z.of_nat (seq k (length rest))) s = foldM (build_step p e) (combine (seq k (length rest)) rest) s.
Proof.
  induction rest as [|c rest IH]; intros k s H; [reflexivity|]. cbn [length seq map combine foldM]. rewrite Nat2Z.id. unfold nth_r at 1.
  assert (E : nth_error p k = Some c) by (pose proof (H 0%nat ltac:(cbn; lia)) as X; cbn in X; rewrite Nat.add_0_r in X; congruence).
  rewrite E. cbn [bind]. destruct (build_step p e s (k, c)) as [s1|]; [|reflexivity]. cbn [bind]. apply IH.
  intros j J. pose proof (H (S j) ltac:(cbn; lia)) as X. cbn [nth_error] in X. rewrite X. f_equal. lia.
Qed.
Lemma positions_n p e n s : (n <= length p)%nat ->
  foldM (fun s i => let* c := nth_r p (Z.to_nat i) in build_step p e s (Z.to_nat i, c)) (zrange 0 (Z.of_nat n)) s = foldM (build_step p e) (combine (seq 0 n) (firstn n p)) s.
Proof.
  intros L. rewrite zrange_0. pose proof (positions p e (firstn n p) 0 s) as H. rewrite firstn_length, Nat.min_l in H by lia. apply H. intros j J. apply nth_firstn. exact J.
Qed.

(** ** C119 *)
Theorem C119_all : forall program, build_count program (-1) = build program /\ build_count program (Z.of_nat (length program)) = build program.
Proof.
  assert (H : forall program, build_count program (Z.of_nat (length program)) = build program).
  { intros [|c0 p0]; [reflexivity|]. set (p := c0 :: p0). unfold build_count, build. fold p. destruct (Z.eqb_spec (Z.of_nat (length p)) (-1)) as [X|_]; [lia|].
    destruct (new_node (Cfg g_empty [] 0 []) KRoot []) as [[st1 r]|]; [|reflexivity]. cbn [bind]. destruct (new_node st1 KEnd []) as [[st2 e]|]; [|reflexivity]. cbn [bind].
    rewrite positions_n by lia. rewrite firstn_all. reflexivity. }
  intros program. split; [|apply H]. rewrite <- H. unfold build_count. destruct (Z.eqb_spec (Z.of_nat (length program)) (-1)); [lia|]. reflexivity.
Qed.
Print Assumptions C119_all.
(** A branch to a later instruction that is not built yet gets no node for its unknown target. *)
Theorem C119_prefix_refuted : exists program n st st', (0 < n <= length program)%nat /\ build_count program (Z.of_nat n) = Ok st /\ build (firstn n program) = Ok st' /\
  (exists b, unknown_node st' b = true) /\ forall b, unknown_node st b = false.
Proof.
  set (p := [jump 14 0 8; plain 4; plain 8]). exists p, 2%nat, (match build_count p 2 with Ok s => s | Err _ => Cfg g_empty [] 0 [] end), (match build (firstn 2 p) with Ok s => s | Err _ => Cfg g_empty [] 0 [] end).
  split; [cbn; lia|]. split; [vm_compute; reflexivity|]. split; [vm_compute; reflexivity|]. split; [exists 4; vm_compute; reflexivity|].
  intros b. unfold unknown_node. assert (X : forall k l, In (b, (k, l)) (c_blocks (match build_count p 2 with Ok s => s | Err _ => Cfg g_empty [] 0 [] end)) -> k <> KUnknown) by (vm_compute; intros k l [H|[H|[H|[]]]]; congruence).
  destruct (dget _ b) as [[k l]|] eqn:E; [|reflexivity]. apply dget_in in E. apply X in E. destruct k; congruence.
Qed.
Print Assumptions C119_prefix_refuted.
(** What holds: the graph is that of the first [n] instructions when none of their
    branches goes to a later instruction.  Missing: those branches. *)
Lemma branch_prefix p n c : (forall t, branch_to p c = Some t -> (t < n)%nat) -> branch_to (firstn n p) c = branch_to p c.
Proof. unfold branch_to. destruct (ci_jump c) as [j|]; [|reflexivity]. intros H. assert (X : forall (p : list cinst) k n, (forall t, branch_to_from k p j = Some t -> (t < k + n)%nat) -> branch_to_from k (firstn n p) j = branch_to_from k p j).
  { clear. induction p as [|c p IH]; intros k [|n] H; try reflexivity.
    - cbn [firstn]. destruct (branch_to_from k (c :: p) j) as [t|] eqn:E; [|reflexivity]. pose proof (H t eq_refl) as L. apply branch_to_from_spec in E as (t0 & d & -> & _). lia.
    - cbn [firstn branch_to_from] in *. destruct (j =? ci_address c); [reflexivity|]. apply IH. intros t T. specialize (H t T). lia. }
  apply X. exact H. Qed.
Lemma branch_to_jumps p i c t : nth_error p i = Some c -> ci_undefined c = false -> ci_branch c = true -> branch_to p c = Some t -> jumps_to p i t.
Proof. intros E U B. unfold branch_to. destruct (ci_jump c) as [j|] eqn:Ej; [|discriminate]. intros X. apply branch_to_from_spec in X as (t0 & d & Et & Ed & -> & Hn). cbn in Et. subst t0. exists c, d. auto 10. Qed.
Theorem C119_prefix_partial : forall program n, (0 < n <= length program)%nat -> stays_within program n -> build_count program (Z.of_nat n) = build (firstn n program).
Proof.
  intros program n L S. destruct program as [|c0 p0]; [cbn in L; lia|]. set (p := c0 :: p0) in *. assert (Ln : length (firstn n p) = n) by (rewrite firstn_length; lia).
  unfold build_count, build. fold p. destruct (Z.eqb_spec (Z.of_nat n) (-1)) as [X|_]; [lia|]. destruct (firstn n p) as [|c1 p1] eqn:Ef; [cbn in Ln; lia|]. rewrite <- Ef in *. clear c1 p1 Ef.
  destruct start as (st1 & st2 & E1 & E2 & H). rewrite E1. cbn [bind]. rewrite E2. cbn [bind]. rewrite positions_n by lia. rewrite Ln.
  pose proof (loop_agree p (firstn n p) (firstn n p) 0 (st2, (1, None, None))) as La. rewrite Ln in La. rewrite La; [reflexivity|reflexivity|reflexivity|reflexivity|apply H|].
  intros i c Li Ei U B. symmetry. apply branch_prefix. intros t T. apply (S i t Li). apply (branch_to_jumps p i c t); [rewrite <- (nth_firstn p n i) by exact Li; exact Ei|exact U|exact B|exact T].
Qed.
Print Assumptions C119_prefix_partial.
(** More instructions than there are. *)
Theorem C119_too_many : forall program n, program <> [] -> Z.of_nat (length program) < n -> build_count program n = Err IndexError.
Proof.
  intros program n Np L. destruct program as [|c0 p0]; [contradiction|]. set (p := c0 :: p0) in *. unfold build_count. fold p. destruct (Z.eqb_spec n (-1)) as [X|_]; [lia|].
  destruct start as (st1 & st2 & E1 & E2 & H). rewrite E1. cbn [bind]. rewrite E2. cbn [bind].
  assert (R : exists more, zrange 0 n = zrange 0 (Z.of_nat (length p)) ++ Z.of_nat (length p) :: more).
  { replace n with (Z.of_nat (length p + S (Z.to_nat n - length p - 1))) by lia. rewrite !zrange_0, seq_app, map_app. cbn [seq map Nat.add]. eauto. }
  destruct R as (more & ->). rewrite foldM_app, positions_n, firstn_all by lia. destruct (build_loop p p 0 _ eq_refl eq_refl (H p)) as (s & E & _). rewrite E. cbn [bind foldM]. rewrite Nat2Z.id. unfold nth_r. rewrite (proj2 (nth_error_None p (length p))) by lia. reflexivity.
Qed.
Print Assumptions C119_too_many.
(** No instruction at all: an edge from the root to the end. *)
Theorem C119_nothing : forall program n, program <> [] -> n <= 0 -> n <> -1 -> exists st, build_count program n = Ok st /\ g_nodes (c_graph st) = [1; 2] /\ (forall b b', edges (c_graph st) b b' <-> b = 1 /\ b' = 2) /\ forall b, instructions st b = [].
Proof.
  intros program n Np L N. destruct program as [|c0 p0]; [contradiction|]. unfold build_count. destruct (Z.eqb_spec n (-1)) as [X|_]; [contradiction|]. assert (zrange 0 n = []) as -> by (unfold zrange; replace (Z.to_nat (n - 0)) with 0%nat by lia; reflexivity).
  eexists. split; [vm_compute; reflexivity|]. split; [reflexivity|]. split.
  - intros b b'. unfold edges, has_edge. cbn [c_graph node_neighbors dget]. destruct (Z.eqb_spec b 1) as [->|N1]; [|destruct (Z.eqb_spec b 2) as [->|N2]].
    + unfold zmem. cbn [existsb]. rewrite orb_false_r, Z.eqb_eq. tauto.
    + split; [discriminate|intros [X _]; discriminate X].
    + split; [discriminate|intros [X _]; contradiction].
  - intros b. unfold instructions. cbn [c_blocks dget]. destruct (b =? 1); [reflexivity|]. destruct (b =? 2); reflexivity.
Qed.
Print Assumptions C119_nothing.
Definition count_example := [plain 0; jump 14 4 0; jump 14 8 16; plain 12; plain 16].
Example C119_example : (0 < 2 <= length count_example)%nat /\ stays_within count_example 2 /\ exists st, build_count count_example 2 = Ok st /\ build (firstn 2 count_example) = Ok st /\ edges (c_graph st) 4 3.
Proof.
  split; [cbn; lia|]. split; [|eexists; split; [vm_compute; reflexivity|]; split; vm_compute; reflexivity].
  intros [|[|i]] t L (c & d & E & _ & B & Et & J & H); [injection E as <-; discriminate|injection E as <-|lia]. destruct t as [|[|t]]; [lia|lia|exfalso]. injection J as J. apply (H 0%nat (plain 0)); [lia|reflexivity|exact J].
Qed.
