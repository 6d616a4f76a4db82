(** C114-C116: how control passes from instruction to instruction in a control flow
    graph. *)
From Verif Require Import ListLemmas.
From Verif Require Export CfgProps CfgProofs5.
From Coq Require Import ZifyBool ZifyNat Permutation.

(** ** Specification *)
(** [y] is the next defined instruction after [x]. *)
Definition next_defined (program : list cinst) (x y : nat) : Prop :=
  defined_at program x /\ defined_at program y /\ (x < y)%nat /\ forall j, (x < j < y)%nat -> ~ defined_at program j.
Definition ends_with (st : cfg) (b : Z) (i : nat) : Prop := In b (g_nodes (c_graph st)) /\ exists l, instructions st b = l ++ [i].
(** The graph leads from the end of a block that ends with [x] over the nodes [l] to a
    block that starts with [y]. *)
Definition leads (st : cfg) (x : nat) (l : list Z) (y : nat) : Prop :=
  exists b b', ends_with st b x /\ starts_with st b' y /\ walk (edges (c_graph st)) b l b'.
(** [y] comes right after [x] in a block. *)
Definition next_in_block (st : cfg) (x y : nat) : Prop := exists b l1 l2, In b (g_nodes (c_graph st)) /\ instructions st b = l1 ++ x :: y :: l2.
Definition conditional_node (st : cfg) (n : Z) : bool := match dget (c_blocks st) n with Some (KCond, _) => true | _ => false end.
Definition unknown_node (st : cfg) (n : Z) : bool := match dget (c_blocks st) n with Some (KUnknown, _) => true | _ => false end.
Definition condition (program : list cinst) (i : nat) (c : Z) : Prop := exists x, nth_error program i = Some x /\ ci_cond x = c.
Definition branches (program : list cinst) (i : nat) : Prop := exists x, nth_error program i = Some x /\ ci_branch x = true.
(** A defined branch with link whose target is no instruction of the program. *)
Definition call_outside (program : list cinst) (i : nat) : Prop :=
  exists c, nth_error program i = Some c /\ ci_undefined c = false /\ ci_branch c = true /\ ci_link c = true /\
    forall t d, nth_error program t = Some d -> ci_jump c <> Some (ci_address d).

(** ** Proofs *)
Lemma loop5 p : forall rest k s s', p = firstn k p ++ rest -> (k + length rest = length p)%nat -> Inv5 p k s -> foldM (build_step p 2) (combine (seq k (length rest)) rest) s = Ok s' -> Inv5 p (length p) s'.
Proof. induction rest as [|c rest IH]; intros k s s' E L H.
  - cbn in *. intros X. injection X as <-. assert (k = length p) by lia. subst. exact H.
  - cbn [length] in *. cbn [seq combine foldM].
    assert (Lk : length (firstn k p) = k) by (rewrite firstn_length; lia).
    assert (Ec : nth_error p k = Some c) by (rewrite E, nth_error_app2, Lk, Nat.sub_diag by lia; auto).
    destruct (build_step p 2 s (k, c)) as [s1|] eqn:E1; [|discriminate]. cbn [bind]. apply (IH (S k)); [|lia|eapply step5; eassumption].
    rewrite E at 1. assert (X : firstn (S k) p = firstn k p ++ [c]).
    { rewrite E at 1. rewrite firstn_app, Lk. rewrite firstn_all2 by lia. replace (S k - k)%nat with 1%nat by lia. reflexivity. }
    rewrite X, <- app_assoc. reflexivity. Qed.
Lemma build5 p st : p <> [] -> build p = Ok st -> good st /\ claim_next p (length p) st /\ claim_over p (length p) st /\ claim_call p (length p) st.
Proof.
  intros Np. destruct p as [|c0 p0]; [contradiction|]. set (p := c0 :: p0) in *. unfold build. fold p.
  destruct (new_node_ok _ KRoot [] good_start) as (st1 & E1 & G1 & L1 & P1 & N1 & Ed1 & I1 & K1); [discriminate|cbn; lia|]. cbn [c_last] in *.
  rewrite E1. cbn [bind]. destruct (new_node_ok st1 KEnd [] G1) as (st2 & E2 & G2 & L2 & P2 & N2 & Ed2 & I2 & K2); [discriminate|lia|]. rewrite E2. cbn [bind].
  rewrite L1 in *. change (0 + 1) with 1 in *. change (1 + 1) with 2 in *.
  assert (I0 : forall x, instructions st2 x = []) by (intros x; rewrite I2, I1; destruct (x =? 2), (x =? 1); reflexivity).
  assert (H0 : Inv5 p 0 (st2, (1, None, None))).
  { split.
    - split; [|split; [rewrite N2, N1; cbn; auto|split; [discriminate|congruence]]]. apply Core; [auto|lia|..].
      + unfold insts. fold (nodes st2). assert (flat_map (instructions st2) (nodes st2) = []) as ->; [|constructor]. clear -I0. induction (nodes st2) as [|x l IH]; [auto|]. cbn [flat_map]. rewrite I0. exact IH.
      + intros x. rewrite I0. apply segment_nil.
      + intros j _. rewrite P2, P1. reflexivity.
      + intros x. rewrite I0, K2, K1. split; [|congruence]. destruct (x =? 2); [discriminate|]. destruct (x =? 1); [discriminate|]. cbn. discriminate.
      + intros x j. rewrite I0. intros [].
      + intros j; lia.
    - assert (Nil : forall a (x : nat) l, defined p 0 <> a ++ x :: l) by (intros a0 x0 l0; destruct a0; discriminate).
      split; [intros a x X; destruct (Nil _ _ _ X)|]. split; [discriminate|]. split; [intros a x y b X; destruct (Nil _ _ _ X)|]. split; [intros a w u ws X; destruct (Nil _ _ _ X)|].
      split; [intros a w u ws ws0 v y b X; destruct (Nil _ _ _ X)|]. split; [intros a w x y b X; destruct (Nil _ _ _ X)|]. intros a w x X; destruct (Nil _ _ _ X). }
  destruct (foldM (build_step p 2) (combine (seq 0 (length p)) p) (st2, (1, None, None))) as [s|] eqn:E3; [|discriminate]. cbn [bind].
  pose proof (loop5 p p 0 _ _ eq_refl eq_refl H0 E3) as (HI & H5). destruct s as [st3 [[cb lf] lc]]. destruct H5 as (_ & _ & HN & _ & HV & HC & _). destruct HI as (C & _).
  intros E4. destruct (edge_once_inv _ _ _ _ (core_sane _ _ _ _ C) E4) as (Sn & K & _). assert (K' : keeps (not_last p (length p)) st3 st) by (eapply keeps_weak; [|exact K]; intros; exact I).
  split; [apply Sn|]. split; [eapply keep_next; eassumption|]. split; [eapply keep_over; eassumption|eapply keep_call; eassumption]. Qed.

Lemma seq_two n x y : (x < y -> y < n -> seq 0 n = seq 0 x ++ x :: seq (S x) (y - x - 1) ++ y :: seq (S y) (n - y - 1))%nat.
Proof. intros L1 L2.
  replace n with (x + S ((y - x - 1) + S (n - y - 1)))%nat at 1 by lia. rewrite seq_app. cbn [Nat.add seq]. rewrite seq_app. cbn [seq]. replace (S x + (y - x - 1))%nat with y by lia. reflexivity. Qed.
(** The defined instructions around two of them. *)
Lemma defined_two p x y : is_defined p x = true -> is_defined p y = true -> (x < y)%nat ->
  exists a b, defined p (length p) = a ++ x :: filter (is_defined p) (seq (S x) (y - x - 1)) ++ y :: b.
Proof. intros Dx Dy L. assert (Ly : (y < length p)%nat). { unfold is_defined in Dy. apply nth_error_Some. destruct (nth_error p y); discriminate. }
  unfold defined. rewrite (seq_two _ x y L Ly), filter_app. cbn [filter]. rewrite Dx, filter_app. cbn [filter]. rewrite Dy. eauto. Qed.
Lemma next_adjacent p x y : next_defined p x y -> exists a b, defined p (length p) = a ++ x :: y :: b.
Proof. intros (Dx & Dy & L & N). apply is_defined_iff in Dx, Dy. destruct (defined_two p x y Dx Dy L) as (a & b & E). exists a, b. rewrite E. f_equal. f_equal. assert (H : filter (is_defined p) (seq (S x) (y - x - 1)) = []).
  { destruct (filter (is_defined p) (seq (S x) (y - x - 1))) as [|j l] eqn:F; [reflexivity|]. exfalso. assert (I : In j (filter (is_defined p) (seq (S x) (y - x - 1)))) by (rewrite F; left; auto). apply filter_In in I as [I1 I2]. apply in_seq in I1. apply (N j); [lia|]. now apply is_defined_iff. }
  rewrite H. reflexivity. Qed.
Lemma arrow_leads st x y : good st -> arrow st (inl x) (inl y) -> leads st x [] y.
Proof. intros G (b & b' & (l & S) & (l' & T) & E). destruct (edg_nodes _ _ _ G E) as [B B']. exists b, b'. split; [split; eauto|]. split; [split; eauto|]. apply walk_edge. now apply has_edge_iff. Qed.
Lemma kind_cond st n : kind_of st n = Some KCond <-> conditional_node st n = true.
Proof. unfold kind_of, conditional_node. destruct (dget (c_blocks st) n) as [[[] l]|]; split; congruence. Qed.
Lemma kind_unknown st n : kind_of st n = Some KUnknown -> unknown_node st n = true.
Proof. unfold kind_of, unknown_node. destruct (dget (c_blocks st) n) as [[[] l]|]; congruence. Qed.
Lemma chain_walk st y : good st -> forall l s, chain st s l (inl y) -> exists b b', is_src st s b /\ starts_with st b' y /\ In b (nodes st) /\ walk (edges (c_graph st)) b l b' /\ Forall (fun n => conditional_node st n = true) l.
Proof. intros G. induction l as [|n l IH]; intros s; cbn [chain].
  - intros (b & b' & S & (l' & T) & E). destruct (edg_nodes _ _ _ G E) as [B B']. exists b, b'. split; [exact S|]. split; [split; eauto|]. split; [exact B|]. split; [apply walk_edge; now apply has_edge_iff|constructor].
  - intros (K & (b & b1 & S & (T & _) & E) & R). subst b1. destruct (IH _ R) as (b2 & b' & (S2 & _) & T' & B2 & W & F). subst b2. destruct (edg_nodes _ _ _ G E) as [B _]. exists b, b'. split; [exact S|]. split; [exact T'|]. split; [exact B|]. split; [|constructor; [now apply kind_cond|exact F]].
    eapply walk_step; [|exact W]. now apply has_edge_iff. Qed.
Lemma via_leads st x y : good st -> via st (inl x) (inl y) -> exists n, conditional_node st n = true /\ leads st x [n] y.
Proof. intros G (n & K & A & B). exists n. split; [now apply kind_cond|]. destruct (chain_walk st y G [n] (inl x)) as (b & b' & S & T & N & W & _); [cbn; auto|]. exists b, b'. split; [split; assumption|]. auto. Qed.
Lemma cond_at_is p i c : condition p i c -> cond_at p i = c.
Proof. intros (x & E & <-). unfold cond_at. rewrite E. reflexivity. Qed.
Lemma no_branch p i : ~ branches p i -> is_branch p i = false.
Proof. intros N. unfold is_branch. destruct (nth_error p i) as [x|] eqn:E; [|reflexivity]. destruct (ci_branch x) eqn:B; [|reflexivity]. exfalso. apply N. exists x. auto. Qed.

Lemma nodup_middle {A} (z : A) : forall l1 l2 m1 m2, NoDup (l1 ++ z :: l2) -> l1 ++ z :: l2 = m1 ++ z :: m2 -> l1 = m1 /\ l2 = m2.
Proof. induction l1 as [|q l1 IH]; intros l2 m1 m2 Nz Ez; destruct m1 as [|q' m1]; cbn in *.
  - injection Ez as ->. auto.
  - injection Ez as -> ->. apply NoDup_cons_iff in Nz as [Nz _]. exfalso. apply Nz, in_app_iff. right. left. reflexivity.
  - injection Ez as -> _. apply NoDup_cons_iff in Nz as [Nz _]. exfalso. apply Nz, in_app_iff. right. left. reflexivity.
  - injection Ez as -> Ez2. apply NoDup_cons_iff in Nz as [_ Nz]. destruct (IH _ _ _ Nz Ez2) as [-> ->]. auto. Qed.

(** ** C114 *)
Theorem C114_falls_through : forall program st x y cx cy,
  build program = Ok st -> next_defined program x y -> ~ branches program x -> condition program x cx -> condition program y cy ->
  (cy = cx -> next_in_block st x y \/ leads st x [] y) /\
  (cy <> cx -> cy = 14 -> leads st x [] y) /\
  (cy <> cx -> cy <> 14 -> exists n, conditional_node st n = true /\ leads st x [n] y).
Proof.
  intros program st x y cx cy E N Nb Cx Cy. assert (Np : program <> []) by (intros ->; destruct Cx as (c & X & _); destruct x; discriminate X).
  destruct (build5 program st Np E) as (G & H & _). destruct (next_adjacent _ _ _ N) as (a & b & Ed). pose proof (H a x y b Ed (no_branch _ _ Nb)) as S. unfold steps in S. rewrite (cond_at_is _ _ _ Cx), (cond_at_is _ _ _ Cy) in S. change cond_always with 14 in S.
  split; [|split].
  - intros ->. rewrite Z.eqb_refl in S. destruct S as [(b0 & l1 & l2 & S)|S]; [left|right; now apply arrow_leads]. exists b0, l1, l2. split; [|exact S]. apply (holds_node st b0 x G). rewrite S. apply in_app_iff. right. left. reflexivity.
  - intros Df ->. destruct (Z.eqb_spec 14 cx); [congruence|]. cbn in S. now apply arrow_leads.
  - intros D1 D2. destruct (Z.eqb_spec cy cx); [contradiction|]. destruct (Z.eqb_spec cy 14); [contradiction|]. now apply via_leads.
Qed.
Print Assumptions C114_falls_through.
(** Same condition across a split block, a change to a condition and back to always. *)
Definition flow_example := [plain 0; plain 4; Ci true false false 14 8 None; plain 12; Ci false false false 0 16 None; plain 20; jump 14 24 12].
Example C114_example : exists st, build flow_example = Ok st /\ next_defined flow_example 1 3 /\ leads st 1 [] 3 /\ next_in_block st 0 1 /\ (exists n, conditional_node st n = true /\ leads st 3 [n] 4) /\ leads st 4 [] 5.
Proof.
  eexists. split; [vm_compute; reflexivity|]. split.
  { split; [eexists; split; reflexivity|]. split; [eexists; split; reflexivity|]. split; [lia|]. intros j J (c & X & U). assert (j = 2)%nat as -> by lia. injection X as <-. discriminate. }
  split; [exists 8, 3; vm_compute; split; [split; [auto 10|exists [0%nat]; reflexivity]|]; split; [split; [auto 10|exists []; reflexivity]|]; apply walk_edge; reflexivity|].
  split; [exists 8, [], []; vm_compute; split; [auto 10|reflexivity]|].
  split; [exists 5; split; [reflexivity|]; exists 3, 4; vm_compute; split; [split; [auto 10|exists []; reflexivity]|]; split; [split; [auto 10|exists []; reflexivity]|]; eapply walk_step; [|apply walk_edge]; reflexivity|].
  exists 4, 6. vm_compute. split; [split; [auto 10|exists []; reflexivity]|]. split; [split; [auto 10|exists []; reflexivity]|]. apply walk_edge. reflexivity.
Qed.

(** ** C115 *)
Lemma walk_stays (R : rel) (P : Z -> Prop) : (forall x y, P x -> R x y -> P y) -> forall u l v, walk R u l v -> P u -> P v.
Proof. intros H u l v W. induction W; eauto. Qed.
(** After a call to an instruction of the program nothing leads to the instruction
    that follows the call. *)
Theorem C115_after_call_refuted : exists program st x y c, build program = Ok st /\ nth_error program x = Some c /\ ci_undefined c = false /\ ci_branch c = true /\ ci_link c = true /\ next_defined program x y /\
  ~ exists b b', holds st b x /\ holds st b' y /\ (b = b' \/ path (edges (c_graph st)) b b').
Proof.
  set (p := [plain 0; Ci false true true 14 4 (Some 0); plain 8]).
  let s := eval vm_compute in (build p) in match s with Ok ?s' => exists p, s', 1%nat, 2%nat, (Ci false true true 14 4 (Some 0)) end.
  split; [vm_compute; reflexivity|]. do 4 (split; [reflexivity|]). split.
  { split; [eexists; split; reflexivity|]. split; [eexists; split; reflexivity|]. split; [lia|]. intros j J. lia. }
  intros (b & b' & (Bn & Bi) & (Bn' & Bi') & H). vm_compute in Bn, Bn'.
  assert (b = 4) as ->. { repeat destruct Bn as [<-|Bn]; try contradiction Bn; vm_compute in Bi; repeat destruct Bi as [Bi|Bi]; try discriminate Bi; try contradiction Bi; reflexivity. }
  assert (b' = 5) as ->. { repeat destruct Bn' as [<-|Bn']; try contradiction Bn'; vm_compute in Bi'; repeat destruct Bi' as [Bi'|Bi']; try discriminate Bi'; try contradiction Bi'; reflexivity. }
  destruct H as [H|[l H]]; [discriminate|].
  assert (X : 5 = 3 \/ 5 = 4); [|lia]. eapply (walk_stays _ (fun n => n = 3 \/ n = 4)); [|exact H|auto]. clear. intros x y [-> | ->] E; apply has_edge_iff in E; vm_compute in E; intuition.
Qed.
Print Assumptions C115_after_call_refuted.
(** What holds: after a call out of the program, whose predecessor is no branch and has
    the same condition, the graph leads over the unknown node to the next instruction.
    Missing: calls into the program, and calls that start a new condition; see
    C115_call_inside and C115_dead_end. *)
Theorem C115_call_outside_partial : forall program st w x y c cy,
  build program = Ok st -> next_defined program w x -> next_defined program x y -> ~ branches program w -> call_outside program x ->
  condition program w c -> condition program x c -> condition program y cy ->
  exists u, unknown_node st u = true /\
    (cy = 14 -> leads st x [u] y) /\ (cy <> 14 -> exists n, conditional_node st n = true /\ leads st x [u; n] y).
Proof.
  intros program st w x y c cy E N1 N2 Nb (cx & E1 & _ & E2 & E3 & E4) Cw Cx Cy. assert (Np : program <> []) by (intros ->; destruct Cx as (q & X & _); destruct x; discriminate X).
  destruct (build5 program st Np E) as (G & _ & _ & H). destruct (next_adjacent _ _ _ N1) as (a & b & Ed). destruct (next_adjacent _ _ _ N2) as (a' & b' & Ed').
  assert (Eb : exists b0, b = y :: b0).
  { pose proof (in_defined_nodup program (length program)) as Nd. rewrite Ed in Ed'. rewrite Ed in Nd. change (a ++ w :: x :: b) with (a ++ [w] ++ x :: b) in *. rewrite app_assoc in Ed', Nd. 
    exists b'. destruct (nodup_middle x _ _ _ _ Nd Ed') as [_ X]. exact X. }
  destruct Eb as [b0 ->]. destruct (H a w x y b0 Ed (no_branch _ _ Nb)) as (u & Ku & (b1 & b2 & (l1 & S) & (Eu & _) & E5) & R).
  { exists cx. split; [exact E1|]. split; [exact E2|]. split; [exact E3|]. destruct (branch_to program cx) as [t|] eqn:Bt; [|reflexivity]. exfalso. unfold branch_to in Bt. destruct (ci_jump cx) as [j|] eqn:Ej; [|discriminate].
    apply branch_to_from_spec in Bt as (t0 & d & _ & Et & -> & _). exact (E4 t0 d Et eq_refl). }
  { rewrite (cond_at_is _ _ _ Cw), (cond_at_is _ _ _ Cx). reflexivity. }
  subst b2. exists u. split; [now apply kind_unknown|]. rewrite (cond_at_is _ _ _ Cy) in R. change cond_always with 14 in R. destruct (edg_nodes _ _ _ G E5) as [B1 B2]. split.
  - intros ->. rewrite Z.eqb_refl in R. destruct R as (b3 & b4 & (E6 & _) & (l4 & T) & E7). subst b3. exists b1, b4. split; [split; eauto|]. split; [split; [apply (edg_nodes _ _ _ G E7)|eauto]|]. eapply walk_step; [|apply walk_edge]; now apply has_edge_iff.
  - intros D. destruct (Z.eqb_spec cy 14) as [|_]; [contradiction|]. destruct R as (n & Kn & R1 & R2). exists n. split; [now apply kind_cond|]. destruct (chain_walk st y G [n] (inr u)) as (b3 & b4 & (E6 & _) & T & _ & W & _); [cbn; auto|]. subst b3. exists b1, b4. split; [split; eauto|]. split; [exact T|]. eapply walk_step; [|exact W]. now apply has_edge_iff.
Qed.
Print Assumptions C115_call_outside_partial.
Definition call_example := [plain 0; Ci false true true 14 4 (Some 100); Ci false false false 1 8 None; plain 12; Ci false true true 14 16 None; plain 20].
Example C115_example : exists st, build call_example = Ok st /\ call_outside call_example 1 /\ leads st 1 [5; 7] 2 /\ unknown_node st 5 = true /\ conditional_node st 7 = true /\ leads st 4 [10] 5.
Proof.
  eexists. split; [vm_compute; reflexivity|]. split.
  { eexists. do 4 (split; [reflexivity|]). intros t d X. do 6 (destruct t as [|t]; [injection X as <-; discriminate|]). destruct t; discriminate. }
  split; [exists 4, 6; vm_compute; split; [split; [auto 12|exists []; reflexivity]|]; split; [split; [auto 12|exists []; reflexivity]|]; eapply walk_step; [reflexivity|]; eapply walk_step; [reflexivity|]; apply walk_edge; reflexivity|].
  split; [reflexivity|]. split; [reflexivity|].
  exists 9, 11; vm_compute; split; [split; [auto 12|exists []; reflexivity]|]; split; [split; [auto 12|exists []; reflexivity]|]; eapply walk_step; [reflexivity|]; apply walk_edge; reflexivity.
Qed.

(** ** C116 *)
Theorem C116_passes_over : forall program st w u v y cw cu cv cy,
  build program = Ok st -> next_defined program w u -> (u <= v)%nat -> next_defined program v y -> ~ branches program w ->
  (forall j, (w < j < y)%nat -> defined_at program j -> ~ condition program j 14) ->
  condition program w cw -> condition program u cu -> cu <> cw -> condition program v cv -> condition program y cy -> cv <> cy ->
  exists l, leads st w l y /\ Forall (fun n => conditional_node st n = true) l.
Proof.
  intros program st w u v y cw cu cv cy E N1 Luv N2 Nb Hc Cw Cu D1 Cv Cy D2. assert (Np : program <> []) by (intros ->; destruct Cw as (q & X & _); destruct w; discriminate X).
  destruct (build5 program st Np E) as (G & _ & H & _). pose proof N1 as (Dw & Du & Lwu & _). pose proof N2 as (Dv & Dy & Lvy & _). pose proof (in_defined_nodup program (length program)) as Nd.
  destruct (next_adjacent _ _ _ N1) as (a1 & b1 & E1). destruct (next_adjacent _ _ _ N2) as (a2 & b2 & E2).
  destruct (defined_two program w y) as (a & b & Ed); [now apply is_defined_iff|now apply is_defined_iff|lia|]. set (F := filter (is_defined program) (seq (S w) (y - w - 1))) in *.
  assert (Fj : forall j, In j F -> (w < j < y)%nat /\ defined_at program j). { intros j J. apply filter_In in J as [J1 J2]. apply in_seq in J1. split; [lia|now apply is_defined_iff]. }
  assert (X1 : F ++ y :: b = u :: b1). { rewrite E1 in Nd, Ed. destruct (nodup_middle w a1 (u :: b1) a (F ++ y :: b)) as [_ X]; auto. }
  assert (X2 : a ++ w :: F = a2 ++ [v]). { rewrite E2 in Nd, Ed. change (a2 ++ v :: y :: b2) with (a2 ++ [v] ++ y :: b2) in *. change (a ++ w :: F ++ y :: b) with (a ++ (w :: F) ++ y :: b) in Ed. rewrite !app_assoc in *. destruct (nodup_middle y _ _ _ _ Nd Ed) as [X _]. auto. }
  destruct F as [|u' ws] eqn:EF; [cbn in X1; injection X1 as X1 _; lia|]. cbn in X1. injection X1 as -> _.
  destruct (exists_last (l := u :: ws)) as (ws0 & v' & Ev); [discriminate|]. assert (v' = v) as ->. { rewrite Ev in X2. change (a ++ w :: ws0 ++ [v']) with (a ++ (w :: ws0) ++ [v']) in X2. rewrite app_assoc in X2. apply app_inj_tail in X2 as [_ X2]. exact X2. }
  destruct (H a w u ws ws0 v y b Ed Ev (no_branch _ _ Nb)) as (l & C).
  { apply Forall_forall. intros j J X. destruct (Fj j J) as [Lj (c & Ec & U)]. apply (Hc j Lj); [exists c; auto|]. exists c. split; [exact Ec|]. unfold cond_at in X. rewrite Ec in X. exact X. }
  { rewrite (cond_at_is _ _ _ Cw), (cond_at_is _ _ _ Cu). exact D1. }
  { rewrite (cond_at_is _ _ _ Cy), (cond_at_is _ _ _ Cv). exact D2. }
  destruct (chain_walk st y G l (inl w) C) as (b3 & b4 & S & T & B & W & Fl). exists l. split; [|exact Fl]. exists b3, b4. split; [split; assumption|]. auto.
Qed.
Print Assumptions C116_passes_over.
(** Hence a direct edge once the conditional nodes are removed. *)
Theorem C116_edge_when_removed : forall program st g' w u v y cw cu cv cy,
  build program = Ok st -> remove_conditionals (conditional_node st) (c_graph st) = Ok g' ->
  next_defined program w u -> (u <= v)%nat -> next_defined program v y -> ~ branches program w ->
  (forall j, (w < j < y)%nat -> defined_at program j -> ~ condition program j 14) ->
  condition program w cw -> condition program u cu -> cu <> cw -> condition program v cv -> condition program y cy -> cv <> cy ->
  exists b b', ends_with st b w /\ starts_with st b' y /\ edges g' b b'.
Proof.
  intros program st g' w u v y cw cu cv cy E Eg N1 Luv N2 Nb Hc Cw Cu D1 Cv Cy D2. destruct (C116_passes_over program st w u v y cw cu cv cy E N1 Luv N2 Nb Hc Cw Cu D1 Cv Cy D2) as (l & (b & b' & S & T & W) & F).
  assert (Np : program <> []) by (intros ->; destruct Cw as (q & X & _); destruct w; discriminate X). destruct (build_ok program Np) as (st' & E' & C & _). assert (st' = st) as -> by congruence. pose proof (good_wf _ (co_good _ _ _ _ C)) as Wf.
  exists b, b'. split; [exact S|]. split; [exact T|]. destruct (remove_spec (conditional_node st) _ Wf) as (g1 & E1 & W' & Ns & H). assert (g1 = g') as -> by congruence. unfold edges. rewrite has_edge_iff, H.
  assert (K : forall n i, In i (instructions st n) -> conditional_node st n = false). { intros n i I. destruct (conditional_node st n) eqn:X; [|reflexivity]. apply kind_cond in X. assert (kind_of st n = Some KBlock) by (apply C; intros Y; rewrite Y in I; destruct I). congruence. }
  destruct S as (Bn & q & Q), T as (Bn' & q' & Q'). split; [apply (K b w); rewrite Q; apply in_app_iff; right; left; auto|]. split; [apply (K b' y); rewrite Q'; left; auto|].
  exists l. split; [|exact F]. eapply walk_mono; [|exact W]. intros x0 y0. apply has_edge_iff.
Qed.
Print Assumptions C116_edge_when_removed.
Definition over_example := [plain 0; Ci false false false 0 4 None; Ci false false false 1 8 None; jump 2 12 0; plain 16].
Example C116_example : exists st g', build over_example = Ok st /\ next_defined over_example 0 1 /\ next_defined over_example 3 4 /\ leads st 0 [5; 7; 9] 4 /\
  remove_conditionals (conditional_node st) (c_graph st) = Ok g' /\ edges g' 3 10.
Proof.
  eexists _, _. split; [vm_compute; reflexivity|]. split; [split; [eexists; split; reflexivity|]; split; [eexists; split; reflexivity|]; split; [lia|]; intros j J; lia|].
  split; [split; [eexists; split; reflexivity|]; split; [eexists; split; reflexivity|]; split; [lia|]; intros j J; lia|].
  split; [exists 3, 10; vm_compute; split; [split; [auto 14|exists []; reflexivity]|]; split; [split; [auto 14|exists []; reflexivity]|]; do 3 (eapply walk_step; [reflexivity|]); apply walk_edge; reflexivity|].
  split; vm_compute; reflexivity.
Qed.
