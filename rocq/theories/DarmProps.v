(** C103-C107: the darm wrapper and instructions given as text. *)
From Verif Require Import ListLemmas DarmModel.
From Coq Require Import ZifyBool ZifyNat Lia.

Lemma zmem_in x l : zmem x l = true <-> In x l.
Proof. unfold zmem. rewrite existsb_exists. split; [intros (y & H & E); replace x with y by lia; exact H|intros H; exists x; split; [exact H|lia]]. Qed.

(** ** C103 *)
(** One text occurs in another. *)
Definition occurs (sub text : string) : Prop := exists before after, text = (before ++ sub ++ after)%string.
(** Registers an instruction writes, as a condition on one register. *)
Definition writes_register (d : darm) (r : Z) : Prop :=
  (r = 17 /\ (k_S d = true \/ exists s, In s ["tst"; "teq"; "cmp"; "cmn"]%string /\ occurs s (k_name d))) \/
  k_Rt d = Some r \/ k_Rd d = Some r \/ (0 < k_reglist d /\ ~ occurs "push" (k_name d) /\ 0 <= r < 16 /\ Z.testbit (k_reglist d) r = true).
Definition reads_register (d : darm) (r : Z) : Prop :=
  k_Rn d = Some r \/ k_Rs d = Some r \/ k_Rm d = Some r \/ (r = 17 /\ k_cond d <> 14) \/
  (occurs "push" (k_name d) /\ 0 < k_reglist d /\ 0 <= r < 16 /\ Z.testbit (k_reglist d) r = true).
Definition writes_as (d : darm) (r : Z) : Prop :=
  (r = 17 /\ (k_S d = true \/ exists s, In s ["tst"; "teq"; "cmp"; "cmn"]%string /\ contains s (k_name d) = true)) \/
  k_Rt d = Some r \/ k_Rd d = Some r \/ (0 < k_reglist d /\ contains "push" (k_name d) = false /\ 0 <= r < 16 /\ Z.testbit (k_reglist d) r = true).
Definition reads_as (d : darm) (r : Z) : Prop :=
  k_Rn d = Some r \/ k_Rs d = Some r \/ k_Rm d = Some r \/ (r = 17 /\ k_cond d <> 14) \/
  (contains "push" (k_name d) = true /\ 0 < k_reglist d /\ 0 <= r < 16 /\ Z.testbit (k_reglist d) r = true).
Lemma prefix_split p : forall t, prefix p t = true <-> exists after, t = (p ++ after)%string.
Proof. induction p as [|c p IH]; intros t; [cbn; split; [eauto|destruct t; reflexivity]|]. destruct t as [|d t]; cbn [prefix]; [split; [discriminate|intros (x & E); discriminate]|].
  destruct (ascii_dec c d) as [<-|N].
  - rewrite IH. split; intros (x & E); exists x; [rewrite E; reflexivity|cbn in E; congruence].
  - split; [discriminate|]. intros (x & E). cbn in E. congruence. Qed.
Lemma contains_occurs p : forall t, contains p t = true <-> occurs p t.
Proof. unfold contains, occurs. induction t as [|d t IH].
  - cbn [index]. destruct p as [|c p]; [split; [intros _; exists ""%string, ""%string; reflexivity|reflexivity]|]. split; [discriminate|]. intros (x & y & E). destruct x; discriminate.
  - cbn [index]. destruct (prefix p (String d t)) eqn:E.
    + split; [intros _|reflexivity]. apply prefix_split in E. destruct E as (y & E). exists ""%string, y. exact E.
    + transitivity (exists x y, t = (x ++ p ++ y)%string); [rewrite <- IH; destruct (index 0 p t); reflexivity|]. split.
      * intros (x & y & ->). exists (String d x), y. reflexivity.
      * intros (x & y & H). destruct x as [|e x].
        -- assert (K : prefix p (String d t) = true) by (apply prefix_split; exists y; exact H). congruence.
        -- cbn in H. injection H as -> ->. eauto. Qed.
Lemma contains_not p t : contains p t = false <-> ~ occurs p t.
Proof. rewrite <- contains_occurs. destruct (contains p t); split; congruence. Qed.
Lemma writes_same d r : writes_as d r <-> writes_register d r.
Proof. unfold writes_as, writes_register. rewrite contains_not. assert (E : (exists s, In s ["tst"; "teq"; "cmp"; "cmn"]%string /\ contains s (k_name d) = true) <-> (exists s, In s ["tst"; "teq"; "cmp"; "cmn"]%string /\ occurs s (k_name d))); [|rewrite E; reflexivity].
  split; intros (s & I & H); exists s; (split; [exact I|]); apply contains_occurs; exact H. Qed.
Lemma reads_same d r : reads_as d r <-> reads_register d r.
Proof. unfold reads_as, reads_register. rewrite contains_occurs. reflexivity. Qed.
Definition add_bit (e : Z) (l : list Z) (x : Z) : list Z := if Z.testbit e x && negb (zmem x l) then l ++ [x] else l.
Lemma add_bits_in e xs : forall l r, In r (fold_left (add_bit e) xs l) <-> In r l \/ (In r xs /\ Z.testbit e r = true).
Proof. induction xs as [|x xs IH]; intros l r; [cbn; tauto|]. cbn [fold_left In]. rewrite IH. unfold add_bit at 1. destruct (Z.testbit e x && negb (zmem x l)) eqn:E.
  - apply andb_true_iff in E. destruct E as [E _]. rewrite in_app_iff. cbn [In]. split; [intros [[H|[<-|[]]]|[H K]]; auto|intros [H|[[<-|H] K]]; auto].
  - split; [intros [H|[H K]]; auto|]. intros [H|[[<-|H] K]]; auto. rewrite K in E. cbn [andb] in E. apply negb_false_iff, zmem_in in E. auto. Qed.
Lemma add_bits_nodup e xs : forall l, NoDup l -> NoDup (fold_left (add_bit e) xs l).
Proof. induction xs as [|x xs IH]; intros l N; [exact N|]. cbn [fold_left]. apply IH. unfold add_bit. destruct (Z.testbit e x && negb (zmem x l)) eqn:E; [|exact N]. apply andb_true_iff in E. destruct E as [_ E]. apply negb_true_iff in E.
  apply NoDup_rev in N. rewrite <- (rev_involutive (l ++ [x])). apply NoDup_rev. rewrite rev_app_distr. cbn [rev app]. constructor; [|exact N]. rewrite <- in_rev. intros H. apply zmem_in in H. congruence. Qed.
Lemma reglist_in e l r : In r (get_register_list e l) <-> In r l \/ (0 <= r < 16 /\ Z.testbit e r = true).
Proof. unfold get_register_list. fold (add_bit e). rewrite (add_bits_in e (zrange 0 16) l r), in_zrange. reflexivity. Qed.
Lemma opt_list_in o r : In r (opt_list o) <-> o = Some r.
Proof. destruct o as [x|]; cbn; [split; [intros [->|[]]; reflexivity|intros E; injection E as ->; auto]|split; [intros []|discriminate]]. Qed.
Definition fixed_written (d : darm) : list Z := (if k_S d || inst_is_any d ["tst"; "teq"; "cmp"; "cmn"]%string then [CPSR] else []) ++ opt_list (k_Rt d) ++ opt_list (k_Rd d).
Lemma fixed_in d r : In r (fixed_written d) <-> (r = 17 /\ (k_S d = true \/ exists s, In s ["tst"; "teq"; "cmp"; "cmn"]%string /\ contains s (k_name d) = true)) \/ k_Rt d = Some r \/ k_Rd d = Some r.
Proof. unfold fixed_written. rewrite !in_app_iff, !opt_list_in. assert (H : In r (if k_S d || inst_is_any d ["tst"; "teq"; "cmp"; "cmn"]%string then [CPSR] else []) <-> (r = 17 /\ (k_S d = true \/ exists s, In s ["tst"; "teq"; "cmp"; "cmn"]%string /\ contains s (k_name d) = true))); [|tauto].
  destruct (k_S d || inst_is_any d ["tst"; "teq"; "cmp"; "cmn"]%string) eqn:E.
  - apply orb_true_iff in E. unfold inst_is_any in E. rewrite existsb_exists in E. unfold inst_is in E. cbn [In]. unfold CPSR. split; [intros [<-|[]]; auto|intros [-> _]; auto].
  - apply orb_false_iff in E. destruct E as [E1 E2]. split; [intros []|]. intros [_ [H|(s & H & K)]]; [congruence|]. apply not_true_iff_false in E2. apply E2. unfold inst_is_any. rewrite existsb_exists. exists s. auto. Qed.
Lemma membership_as d r : (In r (darm_written d) <-> writes_as d r) /\ (In r (darm_read d) <-> reads_as d r) /\ (In r (darm_used d) <-> writes_as d r \/ reads_as d r).
Proof. assert (W : In r (darm_written d) <-> writes_as d r).
  { unfold darm_written, writes_as. fold (fixed_written d). pose proof (fixed_in d r) as F. unfold inst_is. destruct (0 <? k_reglist d) eqn:L; cbn [andb]; [destruct (contains "push" (k_name d)) eqn:P; cbn [negb]|].
    - rewrite F. split; [tauto|]. intros [H|[H|[H|(_ & H & _)]]]; [tauto|tauto|tauto|discriminate].
    - destruct (fixed_written d) as [|x l] eqn:E.
      + rewrite reglist_in. assert (0 < k_reglist d) by lia. cbn [In] in *. tauto.
      + rewrite in_app_iff, reglist_in. assert (0 < k_reglist d) by lia. tauto.
    - rewrite F. split; [tauto|]. intros [H|[H|[H|(H & _)]]]; [tauto|tauto|tauto|lia]. }
  assert (R : In r (darm_read d) <-> reads_as d r).
  { unfold darm_read, reads_as, inst_is, COND_ALWAYS. rewrite !in_app_iff, !opt_list_in.
    assert (A : In r (if k_cond d =? 14 then [] else [CPSR]) <-> r = 17 /\ k_cond d <> 14) by (destruct (Z.eqb_spec (k_cond d) 14); cbn; unfold CPSR; lia).
    assert (B : In r (if contains "push" (k_name d) then if 0 <? k_reglist d then get_register_list (k_reglist d) [] else [] else []) <-> contains "push" (k_name d) = true /\ 0 < k_reglist d /\ 0 <= r < 16 /\ Z.testbit (k_reglist d) r = true).
    { destruct (contains "push" (k_name d)); [|cbn; intuition discriminate]. destruct (0 <? k_reglist d) eqn:L; [rewrite reglist_in; cbn [In]; assert (0 < k_reglist d) by lia; tauto|cbn [In]; split; [intros []|lia]]. }
    tauto. }
  split; [exact W|]. split; [exact R|]. unfold darm_used. rewrite in_app_iff. tauto. Qed.
(** The lists hold the right registers ... *)
Theorem C103_membership_partial d r : (In r (darm_written d) <-> writes_register d r) /\ (In r (darm_read d) <-> reads_register d r) /\ (In r (darm_used d) <-> writes_register d r \/ reads_register d r).
Proof. rewrite <- writes_same, <- reads_same. apply membership_as. Qed.
Print Assumptions C103_membership_partial.
(** ... but with repetitions: exactly when Rt = Rd, or a register list comes with
    any other written register. *)
Lemma nodup_twice (l : list Z) : NoDup (l ++ l) -> l = [].
Proof. destruct l as [|a l]; [reflexivity|]. cbn [app]. intros N. inversion N as [|? ? N1 _]; subst. exfalso. apply N1. apply in_or_app. right. left. reflexivity. Qed.
Lemma once_as d : k_Rt d <> Some 17 -> k_Rd d <> Some 17 ->
  (NoDup (darm_written d) <-> (k_Rt d = k_Rd d -> k_Rt d = None) /\ (0 < k_reglist d -> contains "push" (k_name d) = false -> forall r, writes_as d r -> 0 <= r < 16 /\ Z.testbit (k_reglist d) r = true /\ k_Rt d = None /\ k_Rd d = None)).
Proof. intros T1 T2. unfold darm_written. fold (fixed_written d).
  assert (F : NoDup (fixed_written d) <-> (k_Rt d = k_Rd d -> k_Rt d = None)).
  { unfold fixed_written. destruct (k_S d || inst_is_any d ["tst"; "teq"; "cmp"; "cmn"]%string); destruct (k_Rt d) as [a|], (k_Rd d) as [b|]; cbn [opt_list app]; split; intros H; try (intros; congruence);
      try (repeat constructor; cbn; unfold CPSR; intuition congruence).
    - intros E. injection E as ->. inversion H as [|? ? _ H2]; subst. inversion H2 as [|? ? H3 _]; subst. exfalso. apply H3. left. reflexivity.
    - assert (a <> b) by (intros ->; specialize (H eq_refl); discriminate). repeat constructor; cbn; unfold CPSR; intuition congruence.
    - intros E. injection E as ->. inversion H as [|? ? H3 _]; subst. exfalso. apply H3. left. reflexivity.
    - assert (a <> b) by (intros ->; specialize (H eq_refl); discriminate). repeat constructor; cbn; intuition congruence. }
  unfold inst_is. destruct (0 <? k_reglist d) eqn:L; cbn [andb]; [destruct (contains "push" (k_name d)) eqn:P; cbn [negb]|].
  - rewrite F. split; [intros H; split; [exact H|discriminate]|tauto].
  - pose proof (fixed_in d) as I. destruct (fixed_written d) as [|x l] eqn:E.
    + assert (N1 : k_Rt d = None) by (destruct (k_Rt d) as [a|] eqn:X; [|reflexivity]; exfalso; apply (proj2 (I a)); auto). assert (N2 : k_Rd d = None) by (destruct (k_Rd d) as [a|] eqn:X; [|reflexivity]; exfalso; apply (proj2 (I a)); auto).
      split; [|intros _; unfold get_register_list; fold (add_bit (k_reglist d)); apply add_bits_nodup; constructor]. intros _. split; [auto|]. intros _ _ r W. destruct W as [W|[W|[W|W]]]; [|congruence|congruence|tauto]. exfalso. apply (proj2 (I r)). auto.
    + split.
      * intros N. apply nodup_twice in N. exfalso. assert (H : In x (get_register_list (k_reglist d) (x :: l))) by (apply reglist_in; left; left; reflexivity). rewrite N in H. exact H.
      * intros [_ H]. exfalso. assert (Hx : In x (x :: l)) by (left; reflexivity). pose proof (proj1 (I x) Hx) as W. destruct (H ltac:(lia) eq_refl x) as (B1 & _ & B2 & B3); [unfold writes_as; tauto|]. destruct W as [[W _]|[W|W]]; [lia|congruence|congruence].
  - rewrite F. split; [intros H; split; [exact H|lia]|tauto]. Qed.
Theorem C103_once_exactly d : k_Rt d <> Some 17 -> k_Rd d <> Some 17 ->
  (NoDup (darm_written d) <-> (k_Rt d = k_Rd d -> k_Rt d = None) /\ (0 < k_reglist d -> ~ occurs "push" (k_name d) -> forall r, writes_register d r -> 0 <= r < 16 /\ Z.testbit (k_reglist d) r = true /\ k_Rt d = None /\ k_Rd d = None)).
Proof. intros T1 T2. rewrite (once_as d T1 T2), contains_not. assert (E : (forall r, writes_as d r -> 0 <= r < 16 /\ Z.testbit (k_reglist d) r = true /\ k_Rt d = None /\ k_Rd d = None) <-> (forall r, writes_register d r -> 0 <= r < 16 /\ Z.testbit (k_reglist d) r = true /\ k_Rt d = None /\ k_Rd d = None)); [split; intros H r W; apply H, writes_same, W|]. rewrite E. reflexivity. Qed.
Print Assumptions C103_once_exactly.
(** ldmib r0!, {r1, r2} with S: the registers are listed twice. *)
Definition ex_ldm := mkDarm true "ldm" None None (Some 0) None None 6 14 24 ["ldm r0"; "{r1"; "r2}"]%string.
Theorem C103_once_refuted : exists d r, count_occ Z.eq_dec (darm_written d) r = 2%nat /\ k_Rt d = None /\ k_Rd d = None.
Proof. exists ex_ldm, 1. vm_compute. auto. Qed.
Print Assumptions C103_once_refuted.
Example C103_example : darm_written ex_ldm = [17; 1; 2; 17; 1; 2] /\ darm_read ex_ldm = [0] /\ darm_written (mkDarm false "pop" None None (Some 13) None None 0x8010 14 24 ["pop {r4"; " pc}"]%string) = [4; 15].
Proof. vm_compute. auto. Qed.

(** ** C104 *)
(** What the name of an instruction says. *)
Definition stores (d : darm) : Prop := prefix "str" (k_name d) = true \/ prefix "push" (k_name d) = true.
Definition loads (d : darm) : Prop := prefix "ldr" (k_name d) = true \/ prefix "pop" (k_name d) = true.
Definition says_store (d : darm) (w : bool) : bool := match fst ((if w then storages_written else storages_read) (darm_queries (Some d)) no_caches) with Ok l => zmem 16 l | Err _ => false end.
Definition ex_str := mkDarm false "str" (Some 1) None (Some 2) None None 0 14 20 ["str r1"; " [r2]"]%string.
Definition ex_push1 := mkDarm false "push" None None (Some 13) None None 16 14 24 ["push {r4}"]%string.
Definition ex_pop1 := mkDarm false "pop" None None (Some 13) None None 16 14 24 ["pop {r4}"]%string.
Theorem C104_memory_refuted : (exists d, stores d /\ says_store d true = false /\ says_store d false = true) /\ (exists d, prefix "push" (k_name d) = true /\ says_store d true = false) /\ (exists d, loads d /\ says_store d false = false).
Proof. split; [exists ex_str; split; [left; reflexivity|]; vm_compute; auto|]. split; [exists ex_push1; vm_compute; auto|]. exists ex_pop1. split; [right; reflexivity|]. vm_compute. reflexivity. Qed.
Print Assumptions C104_memory_refuted.
Lemma register16 d : k_Rt d <> Some 16 -> k_Rd d <> Some 16 -> k_Rn d <> Some 16 -> k_Rs d <> Some 16 -> k_Rm d <> Some 16 -> zmem 16 (darm_written d) = false /\ zmem 16 (darm_read d) = false.
Proof. intros H1 H2 H3 H4 H5. destruct (membership_as d 16) as (W & R & _). split; apply not_true_iff_false; intros H; apply zmem_in in H.
  - apply W in H. destruct H as [[H _]|[H|[H|(_ & _ & H & _)]]]; [lia|congruence|congruence|lia].
  - apply R in H. destruct H as [H|[H|[H|[[H _]|(_ & _ & H & _)]]]]; [congruence|congruence|congruence|lia|lia]. Qed.
Lemma memory_as d : k_Rt d <> Some 16 -> k_Rd d <> Some 16 -> k_Rn d <> Some 16 -> k_Rs d <> Some 16 -> k_Rm d <> Some 16 ->
  (says_store d true = true <-> exists p0 p1 ps, k_pieces d = p0 :: p1 :: ps /\ (bracket p0 = true \/ contains "push" (k_name d) = true)) /\
  (says_store d false = true <-> exists p0 p1 ps, k_pieces d = p0 :: p1 :: ps /\ (bracket p1 = true \/ contains "pop" (k_name d) = true)).
Proof. intros H1 H2 H3 H4 H5. destruct (register16 d H1 H2 H3 H4 H5) as [W R]. unfold says_store, storages_written, storages_read, darm_queries. cbn [q_written q_writes q_branch q_read q_reads k_written k_read no_caches].
  assert (A : forall b l, zmem 16 l = false -> zmem 16 (if b : bool then l ++ [STORE] else l) = b). { intros b l H. destruct b; [|exact H]. apply zmem_in, in_or_app. right. left. reflexivity. }
  split.
  - transitivity (darm_writes d = true).
    + specialize (A (darm_writes d) (darm_written d) W). set (l1 := if darm_writes d then darm_written d ++ [STORE] else darm_written d) in *. destruct (zmem 15 l1); cbn [fst]; [rewrite A; reflexivity|]. destruct (darm_branch d); cbn [fst]; [|rewrite A; reflexivity].
      rewrite <- A. split; intros H; apply zmem_in in H; apply zmem_in; [apply in_app_or in H; destruct H as [H|[H|[]]]; [exact H|discriminate]|apply in_or_app; left; exact H].
    + unfold darm_writes. destruct (k_pieces d) as [|p0 [|p1 ps]]; [split; [discriminate|intros (?&?&?&E&_); discriminate]|split; [discriminate|intros (?&?&?&E&_); discriminate]|]. rewrite orb_true_iff. unfold inst_is. split; [intros H; exists p0, p1, ps; auto|intros (?&?&?&E&H); injection E as <- <- <-; exact H].
  - cbn [fst]. rewrite (A (darm_reads d) _ R). unfold darm_reads. destruct (k_pieces d) as [|p0 [|p1 ps]]; [split; [discriminate|intros (?&?&?&E&_); discriminate]|split; [discriminate|intros (?&?&?&E&_); discriminate]|]. rewrite orb_true_iff. unfold inst_is. split; [intros H; exists p0, p1, ps; auto|intros (?&?&?&E&H); injection E as <- <- <-; exact H]. Qed.
(** Memory is seen exactly through the commas and brackets of the text. *)
Theorem C104_memory_partial d : k_Rt d <> Some 16 -> k_Rd d <> Some 16 -> k_Rn d <> Some 16 -> k_Rs d <> Some 16 -> k_Rm d <> Some 16 ->
  (says_store d true = true <-> exists p0 p1 ps, k_pieces d = p0 :: p1 :: ps /\ (occurs "[" p0 \/ occurs "]" p0 \/ occurs "push" (k_name d))) /\
  (says_store d false = true <-> exists p0 p1 ps, k_pieces d = p0 :: p1 :: ps /\ (occurs "[" p1 \/ occurs "]" p1 \/ occurs "pop" (k_name d))).
Proof. intros H1 H2 H3 H4 H5. destruct (memory_as d H1 H2 H3 H4 H5) as [A B]. rewrite A, B. assert (K : forall p, bracket p = true <-> occurs "[" p \/ occurs "]" p) by (intros p; unfold bracket; rewrite orb_true_iff, !contains_occurs; reflexivity).
  split; split; intros (p0 & p1 & ps & E & H); exists p0, p1, ps; (split; [exact E|]).
  - rewrite K, contains_occurs in H. tauto.
  - rewrite K, contains_occurs. tauto.
  - rewrite K, contains_occurs in H. tauto.
  - rewrite K, contains_occurs. tauto. Qed.
Print Assumptions C104_memory_partial.
Example C104_example : says_store (mkDarm false "push" None None (Some 13) None None 48 14 24 ["push {r4"; " r5}"]%string) true = true /\ says_store (mkDarm false "ldr" (Some 1) None (Some 2) None None 0 14 20 ["ldr r1"; " [r2]"]%string) false = true.
Proof. vm_compute. auto. Qed.

(** ** C105 *)
Theorem C105_never dis es u : encodings_to_darm dis es u = match es with [] => Ok [] | _ => Err TypeError end.
Proof. destruct es; reflexivity. Qed.
Print Assumptions C105_never.
Theorem C105_decodes_refuted : exists dis es, (forall e, In e es -> dis e <> None) /\ encodings_to_darm dis es false = Err TypeError.
Proof. exists (fun _ => Some ex_ldm), [1]. split; [intros; discriminate|reflexivity]. Qed.
Print Assumptions C105_decodes_refuted.
Example C105_example : encodings_to_darm (fun _ => Some ex_ldm) [] true = Ok [].
Proof. reflexivity. Qed.

(** ** C106 *)
Local Open Scope string_scope.
Definition lower := "0123456789abcdef".
Definition upper := "0123456789ABCDEF".
Local Close Scope string_scope.
(** [c] is the hexadecimal digit of value [d]. *)
Definition hex_digit (c : ascii) (d : Z) : Prop := exists n, (n < 16)%nat /\ d = Z.of_nat n /\ (String.get n lower = Some c \/ String.get n upper = Some c).
Definition value (base : Z) (ds : list Z) : Z := fold_left (fun a d => a * base + d) ds 0.
(** The characters left out: tab, line feed, vertical tab, form feed, carriage return,
    the four separators and the space. *)
Definition white (c : ascii) : bool := existsb (Nat.eqb (nat_of_ascii c)) [9; 10; 11; 12; 13; 28; 29; 30; 31; 32]%nat.
Definition dense (text : list ascii) : list ascii := filter (fun c => negb (white c)) text.
Lemma white_blank c : white c = blank c.
Proof. destruct c as [[] [] [] [] [] [] [] []]; reflexivity. Qed.
Lemma dense_is text : dense text = filter (fun c => negb (blank c)) text.
Proof. unfold dense. apply filter_ext. intros c. rewrite white_blank. reflexivity. Qed.
(** The eight hexadecimal digits of a word. *)
Definition word_digits (e : Z) : list Z := map (fun i => e / 16 ^ i mod 16) [7; 6; 5; 4; 3; 2; 1; 0].
Lemma hex_digit_ok c d : hex_digit c d -> digit c = Some d /\ 0 <= d < 16 /\ blank c = false.
Proof. intros (n & Hn & -> & H). do 16 (destruct n as [|n]; [destruct H as [H|H]; cbn in H; injection H as <-; vm_compute; intuition congruence|]). lia. Qed.
Lemma digits_value b cs ds : 0 < b -> Forall2 (fun c d => digit c = Some d /\ d < b) cs ds -> forall w acc, (cs = [] -> w = false) -> digits b w acc cs = Ok (fold_left (fun a d => a * b + d) ds acc).
Proof. intros Hb F. induction F as [|c d cs ds (D & L) F IH]; intros w acc H; [rewrite (H eq_refl); reflexivity|]. cbn [digits fold_left]. rewrite D. replace (d <? b) with true by lia. apply IH. reflexivity. Qed.
Lemma plain_int b cs ds : (b = 16 \/ b = 10) -> cs <> [] -> Forall2 (fun c d => digit c = Some d /\ d < b) cs ds -> py_int b cs = Ok (value b ds).
Proof. intros Hb N F. assert (U : unprefix b cs = cs). { destruct F as [|c d cs ds (D & L) F]; [reflexivity|]. destruct F as [|c' d' cs ds (D' & L') F]; [reflexivity|]. cbn [unprefix]. destruct ((b =? 16) && (code c =? 48) && ((code c' =? 120) || (code c' =? 88))) eqn:E; [|reflexivity]. exfalso.
    apply andb_true_iff in E. destruct E as [_ E]. unfold digit in D'. destruct (Z.eqb_spec (code c') 120) as [X|X]; [rewrite X in D'; cbn in D'; injection D' as <-; lia|]. destruct (Z.eqb_spec (code c') 88) as [Y|Y]; [rewrite Y in D'; cbn in D'; injection D' as <-; lia|discriminate]. }
  unfold py_int. rewrite U. destruct cs as [|c cs']; [congruence|]. inversion F as [|? d ? ds' (D & L) _]; subst. assert (S1 : code c =? 45 = false) by (destruct (Z.eqb_spec (code c) 45) as [X|X]; [unfold digit in D; rewrite X in D; discriminate|reflexivity]). assert (S2 : code c =? 43 = false) by (destruct (Z.eqb_spec (code c) 43) as [X|X]; [unfold digit in D; rewrite X in D; discriminate|reflexivity]).
  rewrite S1, S2. unfold value. apply digits_value; [lia|exact F|discriminate]. Qed.
(** Blanks anywhere, either case, any number of digits. *)
Theorem C106_hex_text text ds : ds <> [] -> Forall2 hex_digit (dense text) ds -> text_encoding 16 text = Ok (value 16 ds).
Proof. intros N F. rewrite dense_is in F. unfold text_encoding. apply plain_int; [left; reflexivity|intros E; rewrite E in F; inversion F; congruence|]. induction F as [|c d cs ds' H F IH] in |- *; [constructor|]. constructor; [apply hex_digit_ok in H; intuition lia|]. clear - F. induction F as [|c d cs ds H F IH]; [constructor|]. constructor; [apply hex_digit_ok in H; intuition lia|exact IH]. Qed.
Print Assumptions C106_hex_text.
Lemma word_value e : 0 <= e < 2 ^ 32 -> value 16 (word_digits e) = e.
Proof. intros H. unfold word_digits, value. cbn [map fold_left]. change (16 ^ 7) with 268435456. change (16 ^ 6) with 16777216. change (16 ^ 5) with 1048576. change (16 ^ 4) with 65536. change (16 ^ 3) with 4096. change (16 ^ 2) with 256. change (16 ^ 1) with 16. change (16 ^ 0) with 1. change (2 ^ 32) with 4294967296 in H. Z.div_mod_to_equations. lia. Qed.
(** The usual eight digits, with or without blanks between bytes, name the word. *)
Theorem C106_word e text : 0 <= e < 2 ^ 32 -> Forall2 hex_digit (dense text) (word_digits e) -> text_encoding 16 text = Ok e.
Proof. intros H F. rewrite (C106_hex_text text (word_digits e)); [rewrite word_value by exact H; reflexivity|discriminate|exact F]. Qed.
Print Assumptions C106_word.
(** Any other character than digits, signs, x and _ is refused. *)
Definition no_digit (b : Z) (c : ascii) : Prop := match digit c with Some d => b <= d | None => True end.
Lemma digits_bad b c : no_digit b c -> (code c =? 95) = false -> forall l w acc, In c l -> digits b w acc l = Err ValueError.
Proof. intros D U l. induction l as [|a l IH]; intros w acc []; cbn [digits].
  - subst a. unfold no_digit in D. destruct (digit c) as [d|]; [replace (d <? b) with false by lia; reflexivity|]. rewrite U. reflexivity.
  - destruct (digit a) as [d|]; [destruct (d <? b); [apply IH; assumption|reflexivity]|]. destruct ((code a =? 95) && negb w); [apply IH; assumption|reflexivity]. Qed.
Lemma unprefix_in b c l : code c <> 48 -> (b <> 16 \/ (code c <> 120 /\ code c <> 88)) -> code c <> 95 -> In c l -> In c (unprefix b l).
Proof. intros H1 H2 H4 H. destruct l as [|a [|a' l]]; [exact H|exact H|]. cbn [unprefix]. destruct ((b =? 16) && (code a =? 48) && ((code a' =? 120) || (code a' =? 88))) eqn:E; [|exact H]. cbn [In] in H. destruct H as [->|[->|H]]; [lia|lia|]. destruct l as [|a'' l]; [exact H|]. destruct (Z.eqb_spec (code a'') 95) as [X|X]; [|exact H]. destruct H as [->|H]; [lia|exact H]. Qed.
Lemma refused_as base text c : In c text -> blank c = false -> 0 < base -> no_digit base c -> (base <> 16 \/ (code c <> 120 /\ code c <> 88)) -> ~ In (code c) [43; 45; 95] -> text_encoding base text = Err ValueError.
Proof. intros H B Hb D Hx N. assert (N1 : code c <> 43 /\ code c <> 45 /\ code c <> 95) by (cbn [In] in N; lia). destruct N1 as (N1 & N2 & N3). unfold text_encoding. assert (I : In c (filter (fun c => negb (blank c)) text)) by (apply filter_In; rewrite B; auto).
  assert (X : code c <> 48) by (intros E; unfold no_digit, digit in D; rewrite E in D; cbn in D; lia).
  assert (U : forall l, In c l -> In c (unprefix base l)). { intros l Hl. apply unprefix_in; assumption. }
  destruct (filter (fun c => negb (blank c)) text) as [|a l]; [destruct I|]. cbn [py_int]. destruct (Z.eqb_spec (code a) 45) as [E|E]; [|destruct (Z.eqb_spec (code a) 43) as [E'|E']].
  - destruct I as [->|I]; [lia|]. rewrite (digits_bad base c D ltac:(lia) _ _ _ (U l I)). reflexivity.
  - destruct I as [->|I]; [lia|]. rewrite (digits_bad base c D ltac:(lia) _ _ _ (U l I)). reflexivity.
  - apply (digits_bad base c D ltac:(lia)). apply U, I. Qed.
Lemma no_hex c : no_digit 16 c \/ exists d, hex_digit c d.
Proof. destruct c as [[] [] [] [] [] [] [] []];
  match goal with |- no_digit 16 ?c \/ _ => let x := eval vm_compute in (digit c) in
    match x with
    | Some ?d => let b := eval vm_compute in (d <? 16) in
        match b with
        | true => right; exists d; let n := eval vm_compute in (Z.to_nat d) in exists n; split; [apply Nat.ltb_lt; reflexivity|]; split; [reflexivity|]; first [left; reflexivity|right; reflexivity]
        | false => left; apply Z.leb_le; reflexivity
        end
    | None => left; exact I
    end
  end. Qed.
Lemma no_decimal c : ~ (48 <= Z.of_nat (nat_of_ascii c) <= 57) -> no_digit 10 c.
Proof. unfold no_digit, digit. fold (code c). intros H. replace ((48 <=? code c) && (code c <=? 57)) with false by lia. destruct ((97 <=? code c) && (code c <=? 122)) eqn:E; [lia|]. destruct ((65 <=? code c) && (code c <=? 90)) eqn:E'; [lia|exact I]. Qed.
Theorem C106_refused text c : In c text -> white c = false ->
  ((forall d, ~ hex_digit c d) -> ~ In (nat_of_ascii c) [43; 45; 95; 88; 120]%nat -> text_encoding 16 text = Err ValueError) /\
  (~ (48 <= Z.of_nat (nat_of_ascii c) <= 57) -> ~ In (nat_of_ascii c) [43; 45; 95]%nat -> text_encoding 10 text = Err ValueError).
Proof. intros I W. rewrite white_blank in W. split; intros H N.
  - apply (refused_as 16 text c I W ltac:(lia)); [destruct (no_hex c) as [D|(d & D)]; [exact D|destruct (H d D)]| |]; unfold code; cbn [In] in *; lia.
  - apply (refused_as 10 text c I W ltac:(lia)); [apply no_decimal, H|left; lia|]; unfold code; cbn [In] in *; lia. Qed.
Print Assumptions C106_refused.
Example C106_example : text_encoding 16 (list_ascii_of_string "e0 8F 30 03") = Ok 0xE08F3003 /\ text_encoding 16 (list_ascii_of_string "e08g3003") = Err ValueError /\ text_encoding 10 (list_ascii_of_string "12 3") = Ok 123 /\ word_digits 0xE08F3003 = [14; 0; 8; 15; 3; 0; 0; 3].
Proof. vm_compute. auto. Qed.

(** ** C107 *)
Theorem C107_word_refuted : (exists text e, text_encoding 16 text = Ok e /\ e < 0) /\ (exists text e, text_encoding 16 text = Ok e /\ 2 ^ 32 <= e).
Proof. split; [exists (list_ascii_of_string "-00 00 00 01"), (-1); vm_compute; auto|]. exists (list_ascii_of_string "e0 8f 30 03 00"), 0xE08F300300. vm_compute. split; [reflexivity|discriminate]. Qed.
Print Assumptions C107_word_refuted.
Lemma value_bound b ds : 1 < b -> Forall (fun d => 0 <= d < b) ds -> forall acc, 0 <= acc -> 0 <= fold_left (fun a d => a * b + d) ds acc < (acc + 1) * b ^ Z.of_nat (List.length ds).
Proof. intros Hb F. induction F as [|d ds H F IH]; intros acc Ha; [cbn [fold_left List.length]; rewrite Z.pow_0_r; lia|]. cbn [fold_left List.length]. assert (A : 0 <= acc * b + d) by nia. specialize (IH _ A). rewrite Nat2Z.inj_succ, Z.pow_succ_r by lia. assert (P : 0 < b ^ Z.of_nat (List.length ds)) by (apply Z.pow_pos_nonneg; lia). nia. Qed.
Theorem C107_digits_partial text ds : ds <> [] -> (List.length ds <= 8)%nat -> Forall2 hex_digit (dense text) ds -> exists e, text_encoding 16 text = Ok e /\ 0 <= e < 2 ^ 32.
Proof. intros N L F. exists (value 16 ds). split; [apply C106_hex_text; assumption|]. assert (B : Forall (fun d => 0 <= d < 16) ds) by (clear - F; induction F as [|c d cs ds H F IH]; constructor; [apply hex_digit_ok in H; tauto|exact IH]).
  pose proof (value_bound 16 ds ltac:(lia) B 0 ltac:(lia)) as V. unfold value. split; [lia|]. eapply Z.lt_le_trans; [apply V|]. change (2 ^ 32) with (16 ^ 8). rewrite Z.add_0_l, Z.mul_1_l. apply Z.pow_le_mono_r; lia. Qed.
Print Assumptions C107_digits_partial.
Example C107_example : text_encoding 16 (list_ascii_of_string "ffffffff") = Ok (2 ^ 32 - 1).
Proof. vm_compute. reflexivity. Qed.
