(** The invariant of the construction of the control flow graph. *)
From Verif Require Import ListLemmas.
From Verif Require Export CfgProofs.
From Coq Require Import ZifyBool ZifyNat Permutation.

Definition is_defined (p : list cinst) (j : nat) : bool := match nth_error p j with Some c => negb (ci_undefined c) | None => false end.
Definition is_branch (p : list cinst) (j : nat) : bool := match nth_error p j with Some c => ci_branch c | None => false end.
Definition defined (p : list cinst) (k : nat) : list nat := filter (is_defined p) (seq 0 k).
Definition segment {A} (l m : list A) : Prop := exists a b, m = a ++ l ++ b.
Definition jumped (st : cfg) (i t : nat) : Prop := exists b s, In i (instructions st b) /\ hd_error (instructions st s) = Some t /\ path (edg st) b s.
Definition core (p : list cinst) (k kj : nat) (st : cfg) : Prop :=
  good st /\
  2 <= c_last st /\
  Permutation (insts st) (defined p k) /\
  (forall x, segment (instructions st x) (defined p k)) /\
  (forall j, (k <= j)%nat -> dget (c_pending st) (Z.of_nat j) = None) /\
  (forall x, kind_of st x = Some KBlock <-> instructions st x <> []) /\
  (forall x j, In j (tl (instructions st x)) -> is_branch p j = false) /\
  (forall j c t, (j < kj)%nat -> nth_error p j = Some c -> ci_undefined c = false -> ci_branch c = true -> branch_to p c = Some t -> (t <= j)%nat -> is_defined p t = true -> jumped st j t).
Lemma Core p k kj st :
  good st ->
  2 <= c_last st ->
  Permutation (insts st) (defined p k) ->
  (forall x, segment (instructions st x) (defined p k)) ->
  (forall j, (k <= j)%nat -> dget (c_pending st) (Z.of_nat j) = None) ->
  (forall x, kind_of st x = Some KBlock <-> instructions st x <> []) ->
  (forall x j, In j (tl (instructions st x)) -> is_branch p j = false) ->
  (forall j c t, (j < kj)%nat -> nth_error p j = Some c -> ci_undefined c = false -> ci_branch c = true -> branch_to p c = Some t -> (t <= j)%nat -> is_defined p t = true -> jumped st j t) -> core p k kj st.
Proof. unfold core. auto 10. Qed.
Lemma co_good p k kj st : core p k kj st -> good st. Proof. intros H; apply H. Qed.
Lemma co_last p k kj st : core p k kj st -> 2 <= c_last st. Proof. intros H; apply H. Qed.
Lemma co_perm p k kj st : core p k kj st -> Permutation (insts st) (defined p k). Proof. intros H; apply H. Qed.
Lemma co_seg p k kj st : core p k kj st -> forall x, segment (instructions st x) (defined p k). Proof. intros H; apply H. Qed.
Lemma co_pend p k kj st : core p k kj st -> forall j, (k <= j)%nat -> dget (c_pending st) (Z.of_nat j) = None. Proof. intros H; apply H. Qed.
Lemma co_kind p k kj st : core p k kj st -> forall x, kind_of st x = Some KBlock <-> instructions st x <> []. Proof. intros H; apply H. Qed.
Lemma co_branch p k kj st : core p k kj st -> forall x j, In j (tl (instructions st x)) -> is_branch p j = false. Proof. intros H; apply H. Qed.
Lemma co_jump p k kj st : core p k kj st -> forall j c t, (j < kj)%nat -> nth_error p j = Some c -> ci_undefined c = false -> ci_branch c = true -> branch_to p c = Some t -> (t <= j)%nat -> is_defined p t = true -> jumped st j t. Proof. intros H; apply H. Qed.

Lemma defined_S p k : defined p (S k) = defined p k ++ (if is_defined p k then [k] else []).
Proof. unfold defined. rewrite seq_S, filter_app. cbn [filter Nat.add]. destruct (is_defined p k); reflexivity. Qed.
Lemma defined_in p k j : In j (defined p k) <-> (j < k)%nat /\ is_defined p j = true.
Proof. unfold defined. rewrite filter_In, in_seq. lia. Qed.
Lemma segment_app {A} (l m r : list A) : segment l m -> segment l (m ++ r).
Proof. intros (a & b & ->). exists a, (b ++ r). now rewrite !app_assoc. Qed.
Lemma segment_last {A} (m r : list A) : segment r (m ++ r).
Proof. exists m, []. now rewrite app_nil_r. Qed.
Lemma segment_nil {A} (m : list A) : segment [] m. Proof. exists [], m. reflexivity. Qed.
Lemma segment_trans {A} (l m r : list A) : segment l m -> segment m r -> segment l r.
Proof. intros (a & b & ->) (c & d & ->). exists (c ++ a), (b ++ d). now rewrite !app_assoc. Qed.

Lemma core_node_edge p k kj st st' : core p k kj st -> good st' -> same st st' -> (forall x y, edg st x y -> edg st' x y) -> core p k kj st'.
Proof.
  intros C G S E. pose proof S as (Sb & Sl & Sp & Sn). apply Core.
  - auto.
  - rewrite Sl. apply C.
  - rewrite (same_insts _ _ S). apply C.
  - intros x. rewrite (same_inst _ _ _ S). apply C.
  - intros j. rewrite Sp. apply C.
  - intros x. rewrite (same_inst _ _ _ S), (same_kind _ _ _ S). apply C.
  - intros x j. rewrite (same_inst _ _ _ S). apply C.
  - intros j c t A1 A2 A3 A4 A5 A6 A7. destruct (co_jump _ _ _ _ C j c t A1 A2 A3 A4 A5 A6 A7) as (b & s & B1 & B2 & B3). exists b, s. rewrite !(same_inst _ _ _ S). split; [auto|]. split; [auto|]. eapply path_mono; eauto.
Qed.
Lemma insts_new st st' n l : good st -> nodes st' = nodes st ++ [n] -> ~ In n (nodes st) -> (forall x, instructions st' x = if x =? n then l else instructions st x) -> insts st' = insts st ++ l.
Proof.
  intros G N O I. unfold insts. unfold nodes in *. rewrite N, flat_map_app. f_equal.
  - apply insts_same_on. intros x Hx. rewrite I. destruct (Z.eqb_spec x n); [congruence|auto].
  - cbn. rewrite app_nil_r, I, Z.eqb_refl. reflexivity.
Qed.
Lemma fresh st : good st -> 0 <= c_last st -> ~ In (c_last st + 1) (nodes st).
Proof. intros G L. rewrite (good_nodes _ _ G). lia. Qed.
Lemma new_jumped st st' n l : good st -> ~ In n (nodes st) -> (forall x y, edg st x y -> edg st' x y) ->
  (forall x, instructions st' x = if x =? n then l else instructions st x) -> forall i t, jumped st i t -> jumped st' i t.
Proof.
  intros G O E I i t (b & s & A & B & C). assert (In b (nodes st) /\ In s (nodes st)) as [Nb Ns].
  { split; [destruct (in_dec Z.eq_dec b (nodes st)) as [|N]; [auto|]; apply (outside _ _ G) in N as [N _]; rewrite N in A; destruct A|].
    destruct (in_dec Z.eq_dec s (nodes st)) as [|N]; [auto|]; apply (outside _ _ G) in N as [N _]; rewrite N in B; discriminate. }
  exists b, s. rewrite !I. destruct (Z.eqb_spec b n); [congruence|]. destruct (Z.eqb_spec s n); [congruence|]. split; [auto|]. split; [auto|]. eapply path_mono; eauto.
Qed.

(** A new node that holds no instruction. *)
Lemma core_new_other p k kj st K : core p k kj st -> K <> KBlock -> exists st', new_node st K [] = Ok (st', c_last st + 1) /\ core p k kj st' /\ c_last st' = c_last st + 1 /\
  nodes st' = nodes st ++ [c_last st + 1] /\ (forall x y, edg st' x y <-> edg st x y) /\ (forall x, instructions st' x = instructions st x) /\
  (forall x, x <> c_last st + 1 -> kind_of st' x = kind_of st x).
Proof.
  intros C HK. pose proof (co_last _ _ _ _ C) as L. pose proof (co_good _ _ _ _ C) as G.
  destruct (new_node_ok st K [] G) as (st' & E & G' & L' & P' & N' & Ed & I & Kd); [intros; contradiction|lia|].
  pose proof (fresh st G ltac:(lia)) as O. destruct (outside st _ G O) as [On Ok_].
  assert (I' : forall x, instructions st' x = instructions st x) by (intros x; rewrite I; destruct (Z.eqb_spec x (c_last st + 1)) as [->|]; auto).
  exists st'. split; [auto|]. split.
  - apply Core; [auto|lia|..].
    + rewrite (insts_new st st' (c_last st + 1) [] G N' O I), app_nil_r. apply C.
    + intros x. rewrite I'. apply C.
    + intros j. rewrite P'. apply C.
    + intros x. rewrite I', Kd. destruct (Z.eqb_spec x (c_last st + 1)) as [->|]; [|apply C]. rewrite On. split; [congruence|intros X; exfalso; auto].
    + intros x j. rewrite I'. apply C.
    + intros j c t A1 A2 A3 A4 A5 A6 A7. eapply new_jumped; [exact G|exact O| |exact I|]; [intros; now apply Ed|]. eapply co_jump; eauto.
  - split; [auto|]. split; [auto|]. split; [auto|]. split; [auto|]. intros x X. rewrite Kd. destruct (Z.eqb_spec x (c_last st + 1)); [contradiction|auto].
Qed.
(** A new block for the current instruction. *)
Lemma core_new_block p k kj st : core p k kj st -> is_defined p k = true -> exists st', new_node st KBlock [k] = Ok (st', c_last st + 1) /\ core p (S k) kj st' /\ c_last st' = c_last st + 1 /\
  nodes st' = nodes st ++ [c_last st + 1] /\ (forall x y, edg st' x y <-> edg st x y) /\ (forall x, instructions st' x = if x =? c_last st + 1 then [k] else instructions st x) /\
  (forall x, x <> c_last st + 1 -> kind_of st' x = kind_of st x).
Proof.
  intros C D. pose proof (co_last _ _ _ _ C) as L. pose proof (co_good _ _ _ _ C) as G.
  destruct (new_node_ok st KBlock [k] G) as (st' & E & G' & L' & P' & N' & Ed & I & Kd); [intros; discriminate|lia|].
  pose proof (fresh st G ltac:(lia)) as O.
  exists st'. split; [auto|]. split.
  - apply Core; [auto|lia|..].
    + rewrite (insts_new st st' (c_last st + 1) [k] G N' O I), defined_S, D. apply Permutation_app_tail, C.
    + intros x. rewrite I, defined_S, D. destruct (x =? c_last st + 1); [apply segment_last|apply segment_app, C].
    + intros j. rewrite P'. intros. apply C. lia.
    + intros x. rewrite I, Kd. destruct (x =? c_last st + 1); [split; [discriminate|auto]|apply C].
    + intros x j. rewrite I. destruct (x =? c_last st + 1); [intros []|apply C].
    + intros j c t A1 A2 A3 A4 A5 A6 A7. eapply new_jumped; [exact G|exact O| |exact I|]; [intros; now apply Ed|]. eapply co_jump; eauto.
  - split; [auto|]. split; [auto|]. split; [auto|]. split; [auto|]. intros x X. rewrite Kd. destruct (Z.eqb_spec x (c_last st + 1)); [contradiction|auto].
Qed.
(** Appending the current instruction, not a branch, to the last block. *)
Lemma core_append p k kj st b : core p k kj st -> is_defined p k = true -> is_branch p k = false -> kind_of st b = Some KBlock -> (exists a, defined p k = a ++ instructions st b) ->
  core p (S k) kj (set_instructions st b (instructions st b ++ [k])).
Proof.
  intros C D Br K [a Sf]. pose proof (co_good _ _ _ _ C) as G.
  assert (B : In b (nodes st)) by (destruct (in_dec Z.eq_dec b (nodes st)) as [|N]; [auto|]; apply (outside _ _ G) in N as [_ N]; congruence).
  assert (Ne : instructions st b <> []) by (apply C; auto).
  destruct (set_inst_ok st b (instructions st b ++ [k]) G B) as (G' & Gr & L' & P' & I & Kd). set (st' := set_instructions st b (instructions st b ++ [k])) in *.
  apply Core; [auto|rewrite L'; apply C|..].
  - unfold insts. rewrite Gr. fold (nodes st). destruct (insts_change st st' b (instructions st b ++ [k]) (nodes st)) as (r & A1 & A2).
    { apply good_nodup; auto. } { auto. } { intros x _ X. rewrite I. destruct (Z.eqb_spec x b); [contradiction|auto]. } { rewrite I, Z.eqb_refl. auto. }
    rewrite A2, defined_S, D. rewrite <- (co_perm _ _ _ _ C). unfold insts. fold (nodes st). rewrite A1, <- !app_assoc. apply Permutation_app_head. apply Permutation_app_comm.
  - intros x. rewrite I, defined_S, D. destruct (x =? b); [|apply segment_app, C]. rewrite Sf. exists a, []. now rewrite app_nil_r, app_assoc.
  - intros j. rewrite P'. intros. apply C. lia.
  - intros x. rewrite I, Kd. destruct (Z.eqb_spec x b) as [->|]; [|apply C]. rewrite K. split; [|auto]. intros _ X. destruct (instructions st b); discriminate.
  - intros x j. rewrite I. destruct (x =? b); [|apply C]. destruct (instructions st b) as [|h l] eqn:El; [contradiction|]. cbn [app tl]. rewrite in_app_iff. intros [X|[<-|[]]]; [|auto].
    apply (co_branch _ _ _ _ C b). rewrite El. exact X.
  - intros j c t A1 A2 A3 A4 A5 A6 A7. destruct (co_jump _ _ _ _ C j c t A1 A2 A3 A4 A5 A6 A7) as (x & s & B1 & B2 & B3). exists x, s.
    split; [rewrite I; destruct (Z.eqb_spec x b) as [->|]; [apply in_app_iff; auto|auto]|]. split; [rewrite I; destruct (Z.eqb_spec s b) as [->|]; [destruct (instructions st b); [contradiction|auto]|auto]|].
    unfold edg. rewrite Gr. exact B3.
Qed.
(** The two halves of a block. *)
Lemma tl_in {A} (x : A) l : In x (tl l) -> In x l. Proof. destruct l; [auto|now right]. Qed.
Lemma tl_firstn {A} j (l : list A) x : In x (tl (firstn j l)) -> In x (tl l).
Proof. destruct l as [|y l], j as [|j]; cbn; auto; [intros []|]. intros H. rewrite <- (firstn_skipn j l). apply in_app_iff. auto. Qed.
Lemma tl_skipn {A} j (l : list A) x : In x (tl (skipn j l)) -> In x (tl l).
Proof.
  destruct j as [|j]; [auto|]. destruct l as [|y l]; [auto|]. cbn [skipn tl]. intros H. apply tl_in in H. rewrite <- (firstn_skipn j l). apply in_app_iff. auto.
Qed.
Lemma core_cut p k kj st st' split j : core p k kj st -> In split (nodes st) -> (0 < j < length (instructions st split))%nat ->
  good st' -> c_last st' = c_last st + 1 -> c_pending st' = c_pending st -> nodes st' = nodes st ++ [c_last st + 1] ->
  (forall x, instructions st' x = if x =? c_last st + 1 then firstn j (instructions st split) else if x =? split then skipn j (instructions st split) else instructions st x) ->
  (forall x, kind_of st' x = if x =? c_last st + 1 then Some KBlock else kind_of st x) ->
  (forall x y, edg st' x y <-> (edg st x y /\ y <> split) \/ (edg st x split /\ y = c_last st + 1) \/ (x = c_last st + 1 /\ y = split)) ->
  core p k kj st'.
Proof.
  intros C S J G' L' P' N' I Kd Ed. pose proof (co_good _ _ _ _ C) as G. pose proof (co_last _ _ _ _ C) as L.
  pose proof (fresh st G ltac:(lia)) as O. set (up := c_last st + 1) in *. set (l := instructions st split) in *.
  assert (Uns : up <> split) by (intros X; apply O; now rewrite X).
  assert (F : firstn j l <> []) by (intros X; apply (f_equal (@length nat)) in X; rewrite firstn_length in X; cbn in X; lia).
  assert (Q : skipn j l <> []) by (intros X; apply (f_equal (@length nat)) in X; rewrite skipn_length in X; cbn in X; lia).
  assert (Iu : instructions st' up = firstn j l) by (rewrite I, Z.eqb_refl; auto).
  assert (Is : instructions st' split = skipn j l) by (rewrite I, Z.eqb_refl; destruct (Z.eqb_spec split up); [congruence|auto]).
  assert (Io : forall x, x <> up -> x <> split -> instructions st' x = instructions st x) by (intros x X Y; rewrite I; destruct (Z.eqb_spec x up); [contradiction|]; destruct (Z.eqb_spec x split); [contradiction|auto]).
  apply Core; [auto|lia|..].
  - unfold insts. fold (nodes st'). rewrite N', flat_map_app. cbn [flat_map]. rewrite app_nil_r, Iu.
    destruct (insts_change st st' split (skipn j l) (nodes st)) as (r & A1 & A2).
    { apply good_nodup; auto. } { auto. } { intros x X Y. apply Io; [congruence|auto]. } { now rewrite Is. }
    rewrite A2, <- (co_perm _ _ _ _ C). unfold insts. fold (nodes st). rewrite A1. fold l. rewrite <- (firstn_skipn j l) at 3.
    rewrite <- !app_assoc. rewrite (Permutation_app_comm r). rewrite app_assoc, (Permutation_app_comm (skipn j l)), <- app_assoc. reflexivity.
  - intros x. rewrite I. assert (Sl := co_seg _ _ _ _ C split). fold l in Sl. destruct (x =? up); [|destruct (x =? split); [|apply C]].
    + eapply segment_trans; [|exact Sl]. exists [], (skipn j l). cbn. now rewrite firstn_skipn.
    + eapply segment_trans; [|exact Sl]. exists (firstn j l), []. now rewrite app_nil_r, firstn_skipn.
  - intros i. rewrite P'. apply C.
  - intros x. rewrite I, Kd. destruct (Z.eqb_spec x up); [split; auto|]. destruct (Z.eqb_spec x split) as [->|]; [|apply C]. split; [auto|]. intros _. apply C. fold l. intros X. rewrite X in Q. destruct j; apply Q; auto.
  - intros x i. rewrite I. destruct (x =? up); [|destruct (x =? split); [|apply C]]; intros H.
    + apply tl_firstn in H. eapply co_branch; eauto.
    + apply tl_skipn in H. eapply co_branch; eauto.
  - intros i c t A1 A2 A3 A4 A5 A6 A7. destruct (co_jump _ _ _ _ C i c t A1 A2 A3 A4 A5 A6 A7) as (b & s & B1 & B2 & B3).
    set (f := fun y => if y =? split then up else y).
    assert (T : forall x y, path (edg st) x y -> path (edg st') x (f y)).
    { assert (T1 : forall x y, edg st x y -> path (edg st') x (f y)).
      { intros x y E. unfold f. apply path_edge, Ed. destruct (Z.eqb_spec y split) as [->|]; auto. }
      assert (T2 : forall y, f y = y \/ (edg st' (f y) y)).
      { intros y. unfold f. destruct (Z.eqb_spec y split) as [->|]; [right|auto]. apply Ed. auto. }
      intros x y [m W]. induction W as [x y E|x w m y E W IH]; [auto|]. destruct (T2 w) as [Q1|Q1].
      - eapply path_trans; [|exact IH]. pose proof (T1 x w E) as Q2. now rewrite Q1 in Q2.
      - eapply path_trans; [apply T1, E|]. eapply path_cons; eauto. }
    assert (Bn : b <> up /\ s <> up).
    { destruct (outside st up G O) as [Z1 _]. split; intros ->; rewrite Z1 in *; [destruct B1|discriminate]. }
    destruct Bn as [Bn Sn].
    assert (Hs : hd_error (instructions st' (f s)) = Some t).
    { unfold f. destruct (Z.eqb_spec s split) as [->|n]; [|now rewrite Io]. rewrite Iu. fold l in B2. destruct l; [discriminate|]. destruct j; [lia|exact B2]. }
    destruct (Z.eq_dec b split) as [->|Bs].
    + fold l in B1. rewrite <- (firstn_skipn j l) in B1. apply in_app_iff in B1 as [B1|B1].
      * exists up, (f s). rewrite Iu. split; [auto|]. split; [auto|]. eapply path_cons; [apply Ed; right; right; auto|]. auto.
      * exists split, (f s). rewrite Is. auto.
    + exists b, (f s). rewrite Io by auto. auto.
Qed.
