(** Property theorems C30-C33 (instruction queries). *)
From Verif Require Import ListLemmas FlipModel FlipProofs InstModel InstSpec InstProofs.
From Coq Require Import ZifyBool ZifyNat Permutation.

(** C30: every register that appears in an operand would be listed.  False: R0 as
    base of a memory operand is dropped, because its number is the one of "none"
    (here ldr r1, [r0]). *)
Definition ldr_r1_r0 : cap := mkCap KOther 1 15 [OReg 67; OMem 66 0] false false false.
Theorem C30_registers_used_refuted : exists c l r, wf_cap c /\ known_memory c /\ registers_used c = Ok l /\ in_memory c r /\ ~ In r l.
Proof. exists ldr_r1_r0, [1], 0. split; [intros code [H|[H|[]]]; [congruence|discriminate]|].
  split; [intros b i [H|[H|[]]]; [discriminate|]; assert (b = 66) as -> by congruence; assert (i = 0) as -> by congruence; split; [right; exists 0; left; lia|left; reflexivity]|].
  split; [reflexivity|]. split; [exists 66, 0; split; [right; left; reflexivity|left; left; lia]|]. intros [H|[]]. discriminate. Qed.
Print Assumptions C30_registers_used_refuted.

(** What is missing is exactly R0 inside memory operands; the query raises
    KeyError exactly when a memory operand contains an unknown register. *)
Theorem C30_registers_used_partial : forall c, wf_cap c ->
  (known_memory c -> exists l, registers_used c = Ok l /\ NoDup l /\
     forall r, In r l <-> (stack_op c /\ r = 13) \/ as_register c r \/ (in_memory c r /\ r <> 0)) /\
  (~ known_memory c -> registers_used c = Err KeyError).
Proof. exact registers_used_spec. Qed.
Print Assumptions C30_registers_used_partial.

(** Written and read registers are used registers, or SP for push and pop. *)
Theorem C30_written_and_read : forall c l, registers_used c = Ok l ->
  exists w r, registers_written c = Ok w /\ registers_read c = Ok r /\
    (forall x, In x w -> In x l) /\ (forall x, In x r -> In x l \/ (x = 13 /\ stack_op c)) /\
    (forall x, In x l -> 0 <= x <= 15 \/ exists code, x = 20 + code /\ ~ arm_code code /\ In (OReg code) (c_operands c)).
Proof. intros c l E. destruct (written_ok c l E) as (w & Ew). destruct (read_ok c l E) as (r & Er). exists w, r.
  split; [exact Ew|]. split; [exact Er|]. split; [intros x; eapply written_sub; eauto|]. split; [intros x; eapply read_sub; eauto|].
  intros x. eapply used_values; eauto. Qed.
Print Assumptions C30_written_and_read.
(** push {r1, r2, lr}; str r1, [r2, r3]; vmov with an unknown register; a memory
    operand with an unknown base. *)
Example C30_example :
  let push := mkCap KPush 1 15 [OReg 67; OReg 68; OReg 10] false false false in
  let str := mkCap KOther 2 15 [OReg 67; OMem 68 69] true false false in
  (registers_used push = Ok [13; 1; 2; 14] /\ registers_written push = Ok [] /\ registers_read push = Ok [1; 2; 14; 13]) /\
  (registers_used str = Ok [1; 2; 3] /\ registers_written str = Ok [1] /\ registers_read str = Ok [2; 3]) /\
  registers_used (mkCap KOther 3 15 [OReg 30] false false false) = Ok [50] /\
  registers_used (mkCap KOther 3 15 [OMem 30 0] false false false) = Err KeyError.
Proof. vm_compute. auto 10. Qed.

(** C31.  Whatever queries were made before on the same instruction, each answer
    is the register list extended as described. *)
Definition extended (regs : list Z) (memory : bool) (storages : list Z) : Prop :=
  storages = regs ++ (if memory then [16] else []).
(** Some operand is in memory. *)
Definition in_memory (c : cap) : bool := existsb (fun o => match o with OMem _ _ => true | _ => false end) (c_operands c).
Definition expected (c : cap) (l w r : list Z) (branch : bool) (q : call) (answer : list Z) : Prop :=
  match q with
  | CUsed => extended l (c_store c || in_memory c) answer \/ (l = [] /\ c_store c || in_memory c = false /\ answer = [18])
  | CWritten => if branch && negb (zmem 15 w) then extended w (c_store c) (removelast answer) /\ answer = removelast answer ++ [15]
                else extended w (c_store c) answer
  | CRead => extended r (in_memory c && negb (c_store c)) answer
  end.
Theorem C31_storages : forall c l w r b calls,
  registers_used c = Ok l -> registers_written c = Ok w -> registers_read c = Ok r -> is_branch c = Ok b ->
  Forall2 (fun q answer => exists s, answer = Ok s /\ expected c l w r b q s /\ (q = CUsed -> s <> []))
          calls (do_calls (caps_queries c) no_caches calls).
Proof. intros c l w r b calls El Ew Er Eb. rewrite do_calls_fresh by (try apply caps_branch_total; apply no_caches_coherent).
  induction calls as [|q calls IH]; cbn [map]; constructor; [|exact IH]. clear IH.
  destruct q; unfold fresh, do_call, expected, extended; change (in_memory c) with (has_memory_operand c).
  - unfold storages_used. cbn [k_used no_caches caps_queries q_used q_writes q_reads]. rewrite El. cbn [fst].
    eexists. split; [reflexivity|]. unfold writes_memory, reads_memory. replace (c_store c || has_memory_operand c && negb (writes_memory c)) with (c_store c || has_memory_operand c)
      by (unfold writes_memory; destruct (c_store c), (has_memory_operand c); reflexivity).
    destruct (c_store c || has_memory_operand c).
    + split; [left; destruct l; reflexivity|intros _; destruct l; discriminate].
    + destruct l as [|x l]; [split; [right; auto|discriminate]|split; [left; rewrite app_nil_r; reflexivity|discriminate]].
  - unfold storages_written. cbn [k_written no_caches caps_queries q_written q_writes q_branch]. rewrite Ew, Eb. unfold writes_memory.
    assert (M : zmem 15 (if c_store c then w ++ [STORE] else w) = zmem 15 w).
    { destruct (c_store c); [|reflexivity]. unfold zmem. rewrite existsb_app. cbn. apply orb_false_r. }
    rewrite M. assert (X : (if c_store c then w ++ [STORE] else w) = w ++ (if c_store c then [16] else [])) by (destruct (c_store c); [reflexivity|rewrite app_nil_r; reflexivity]).
    destruct (zmem 15 w); cbn [fst negb].
    + eexists. split; [reflexivity|]. rewrite andb_false_r. split; [exact X|discriminate].
    + eexists. split; [reflexivity|]. rewrite andb_true_r. destruct b; [|split; [exact X|discriminate]].
      rewrite removelast_last. split; [split; [exact X|reflexivity]|discriminate].
  - unfold storages_read. cbn [k_read no_caches caps_queries q_read q_reads]. rewrite Er. cbn [fst]. eexists. split; [reflexivity|].
    unfold reads_memory, writes_memory. destruct (has_memory_operand c && negb (c_store c)); split; try discriminate; [reflexivity|rewrite app_nil_r; reflexivity]. Qed.
Print Assumptions C31_storages.
Example C31_example :
  let b := mkCap KOther 5 15 [OImm 64] false true false in
  let str := mkCap KOther 2 15 [OReg 67; OMem 68 69] true false false in
  let ldr_pc := mkCap KOther 2 15 [OReg 11; OMem 68 0] false false false in
  do_calls (caps_queries b) no_caches [CUsed; CWritten; CRead; CUsed; CRead] = [Ok [18]; Ok [15]; Ok []; Ok [18]; Ok []] /\
  do_calls (caps_queries str) no_caches [CWritten; CUsed; CWritten; CRead] = [Ok [1; 16]; Ok [1; 2; 3; 16]; Ok [1; 16]; Ok [2; 3]] /\
  do_calls (caps_queries ldr_pc) no_caches [CWritten; CRead] = [Ok [15]; Ok [2; 16]].
Proof. vm_compute. auto. Qed.

(** C32: flag-setting instructions would be recognised through CPSR among the
    written registers.  False (here cmp r1, r2, which sets the flags), ... *)
Theorem C32_flags_refuted : exists c w, wf_cap c /\ known_memory c /\ c_flags c = true /\ registers_written c = Ok w /\ ~ In CPSR w.
Proof. exists (mkCap KOther 7 15 [OReg 67; OReg 68] false false true), [1]. split; [intros code [H|[H|[]]]; congruence|].
  split; [intros b i [H|[H|[]]]; discriminate|]. split; [reflexivity|]. split; [reflexivity|]. intros [H|[]]. discriminate. Qed.
Print Assumptions C32_flags_refuted.
(** ... and never true: no decoded instruction lists CPSR at all. *)
Theorem C32_flags_partial : forall c w, (forall code, In (OReg code) (c_operands c) -> 0 <= code) ->
  registers_written c = Ok w -> ~ In CPSR w.
Proof. intros c w H E I. unfold registers_written in E. destruct (c_kind c).
  - assert (w = []) as -> by congruence. contradiction.
  - destruct (used_values c w CPSR E I) as [A|(code & A & _ & B)]; [unfold CPSR in A; lia|]. specialize (H code B). unfold CPSR in A. lia.
  - destruct (registers_used c) as [l|] eqn:El; cbn [rmap] in E; [|discriminate]. assert (w = firstn 1 l) as -> by congruence.
    destruct (used_values c l CPSR El (firstn1_in _ _ I)) as [A|(code & A & _ & B)]; [unfold CPSR in A; lia|]. specialize (H code B). unfold CPSR in A. lia. Qed.
Print Assumptions C32_flags_partial.
Example C32_example : registers_written (mkCap KPop 7 15 [OReg 67; OReg 11] false false true) = Ok [13; 1; 15].
Proof. reflexivity. Qed.

(** C33: the queries would be total.  False for load/store multiple (ldm r13!, {r0}, written)
    and for branches (b, read). *)
Theorem C33_total_refuted : exists e e', 0 <= e < 2 ^ 32 /\ 0 <= e' < 2 ^ 32 /\ arm_written e = Err TypeError /\ arm_read e' = Err ValueError.
Proof. exists 0xE8BD0001, 0xEA000000. split; [lia|]. split; [lia|]. split; reflexivity. Qed.
Print Assumptions C33_total_refuted.

(** Exactly when each query raises, in terms of the bit fields of the encoding;
    otherwise it lists register numbers. *)
Definition read_raises (e : Z) : Prop :=
  let class := field e 25 3 in
  let opcode := field e 21 4 in
  let rn := field e 16 4 in let rd := field e 12 4 in let rs := field e 8 4 in let rm := field e 0 4 in
  5 <= class \/
  (class <= 1 /\ ~ op_two opcode /\ rd <> rn /\ (class = 0 -> rd <> rm /\ (Z.testbit e 4 = true -> rd <> rs))).
Theorem C33_total_partial : forall e,
  (forall x, In x (arm_used e) -> 0 <= x <= 15) /\
  (if field e 25 3 =? 4 then arm_written e = Err TypeError
   else exists l, arm_written e = Ok l /\ forall x, In x l -> 0 <= x <= 15) /\
  (read_raises e -> arm_read e = Err ValueError) /\
  (~ read_raises e -> exists l, arm_read e = Ok l /\ forall x, In x l -> 0 <= x <= 15).
Proof. intros e. pose proof (field_range e 25 3 ltac:(lia) ltac:(lia)) as Hc. change (2 ^ 3) with 8 in Hc.
  pose proof (field_range e 21 4 ltac:(lia) ltac:(lia)) as Ho. pose proof (field_range e 16 4 ltac:(lia) ltac:(lia)) as Hn.
  pose proof (field_range e 12 4 ltac:(lia) ltac:(lia)) as Hd. change (2 ^ 4) with 16 in *.
  split; [apply arm_used_range|]. split.
  { unfold arm_written. rewrite arm_type_field, arm_rd_field. unfold T_DPI, T_DP, T_LS, T_LSO, T_LSM.
    destruct (Z.eqb_spec (field e 25 3) 4) as [->|N]; [reflexivity|].
    replace (field e 25 3 * 2 ^ 25 =? 134217728) with false by lia.
    destruct ((field e 25 3 * 2 ^ 25 =? 33554432) || (field e 25 3 * 2 ^ 25 =? 0) || (field e 25 3 * 2 ^ 25 =? 67108864) || (field e 25 3 * 2 ^ 25 =? 100663296));
    eexists; (split; [reflexivity|]); intros x Hx; [destruct Hx as [<-|[]]; lia|contradiction]. }
  assert (U : field e 25 3 <> 4 -> (read_raises e <-> ~ In (arm_rd e) (arm_used e))).
  { intros N. unfold read_raises, arm_used. cbv zeta. rewrite arm_type_field, arm_rn_field, arm_rd_field, arm_rs_field, arm_rm_field.
    unfold T_DPI, T_DP, T_LS, T_LSO, T_LSM.
    destruct (field e 25 3 * 2 ^ 25 <=? 33554432) eqn:E1.
    - assert (C : field e 25 3 <= 1) by lia. rewrite (arm_op_field e C).
      pose proof (two_registers_spec (field e 21 4) Ho) as T. rewrite !in_app_iff.
      destruct (two_registers (field e 21 4 * 2 ^ 21)).
      + split; [intros [A|[_ [A _]]]; [lia|exfalso; apply A, T; reflexivity]|]. intros A. exfalso. apply A. right; left; left; reflexivity.
      + assert (NT : ~ op_two (field e 21 4)) by (intros X; apply T in X; discriminate).
        destruct (Z.eqb_spec (field e 25 3 * 2 ^ 25) 0) as [E0|E0].
        * destruct (Z.testbit e 4); cbn [app In]; split; intros A; [destruct A as [A|(_ & _ & A & B)]; [lia|]| |destruct A as [A|(_ & _ & A & B)]; [lia|]|].
          -- specialize (B ltac:(lia)). destruct B as [B1 B2]. specialize (B2 eq_refl). intuition congruence.
          -- right. split; [lia|]. split; [exact NT|]. split; [intuition congruence|]. intros _. split; [intuition congruence|intros _; intuition congruence].
          -- specialize (B ltac:(lia)). destruct B as [B1 B2]. intuition congruence.
          -- right. split; [lia|]. split; [exact NT|]. split; [intuition congruence|]. intros _. split; [intuition congruence|discriminate].
        * cbn [In]; split; intros A; [destruct A as [A|(_ & _ & A & B)]; [lia|]; intuition congruence|].
          right. split; [lia|]. split; [exact NT|]. split; [intuition congruence|]. intros; lia.
    - destruct ((field e 25 3 * 2 ^ 25 =? 67108864) || (field e 25 3 * 2 ^ 25 =? 100663296)) eqn:E2.
      + split; [intros [A|[A _]]; lia|]. intros A. exfalso. apply A. apply in_app_iff. left. right; left; reflexivity.
      + replace (field e 25 3 * 2 ^ 25 =? 134217728) with false by lia. split; [intros _ []|intros _; left; lia]. }
  unfold arm_read. rewrite arm_type_field. unfold T_LSM. destruct (Z.eqb_spec (field e 25 3 * 2 ^ 25) 134217728) as [E|E].
  - split; [unfold read_raises; cbv zeta; lia|]. intros _. exists [arm_rn e]. split; [reflexivity|]. intros x [<-|[]]. rewrite arm_rn_field. lia.
  - assert (N : field e 25 3 <> 4) by lia. specialize (U N). split.
    + intros R. apply remove_first_err, U, R.
    + intros R. destruct (in_dec Z.eq_dec (arm_rd e) (arm_used e)) as [I|I]; [|exfalso; apply R, U, I].
      destruct (remove_first_ok _ _ I) as (l & El & Il). exists l. split; [exact El|]. intros x Hx. apply (arm_used_range e), Il, Hx. Qed.
Print Assumptions C33_total_partial.
(** Which registers: the fields the instruction class has, and the list of a load or
    store multiple.  What is read is what is used, less the destination once. *)
Definition names_register (e r : Z) : Prop :=
  let class := field e 25 3 in
  (class <= 4 /\ r = field e 16 4) \/
  ((class <= 1 /\ op_two (field e 21 4) \/ class = 2 \/ class = 3) /\ r = field e 12 4) \/
  ((class = 0 \/ class = 3) /\ r = field e 0 4) \/
  (class = 0 /\ Z.testbit e 4 = true /\ r = field e 8 4) \/
  (class = 4 /\ 0 <= r < 16 /\ Z.testbit e r = true).
Lemma remove_first_perm x l l' : remove_first x l = Ok l' -> Permutation (x :: l') l.
Proof. revert l'. induction l as [|y l IH]; intros l' E; [discriminate|]. cbn [remove_first] in E. destruct (Z.eqb_spec y x) as [->|N]; [injection E as ->; apply Permutation_refl|].
  destruct (remove_first x l) as [l0|]; [|discriminate]. injection E as <-. eapply perm_trans; [apply perm_swap|]. apply perm_skip, IH. reflexivity. Qed.
Theorem C33_which : forall e,
  (forall r, In r (arm_used e) <-> names_register e r) /\
  (forall l, arm_written e = Ok l -> l = (if field e 25 3 <=? 3 then [field e 12 4] else [])) /\
  (forall l, arm_read e = Ok l -> if field e 25 3 =? 4 then l = [field e 16 4] else Permutation (field e 12 4 :: l) (arm_used e)).
Proof. intros e. pose proof (field_range e 25 3 ltac:(lia) ltac:(lia)) as Hc. change (2 ^ 3) with 8 in Hc. pose proof (field_range e 21 4 ltac:(lia) ltac:(lia)) as Ho. change (2 ^ 4) with 16 in *. split; [|split].
  - intros r. unfold names_register, arm_used. cbv zeta. rewrite arm_type_field, arm_rn_field, arm_rd_field, arm_rs_field, arm_rm_field. unfold T_DPI, T_DP, T_LS, T_LSO, T_LSM. pose proof (two_registers_spec (field e 21 4) Ho) as T.
    assert (C : field e 25 3 = 0 \/ field e 25 3 = 1 \/ field e 25 3 = 2 \/ field e 25 3 = 3 \/ field e 25 3 = 4 \/ 5 <= field e 25 3) by lia. assert (Sy : forall x, x = r <-> r = x) by (intros; split; congruence).
    assert (F : 0 <= 4 /\ 1 <= 4 /\ 2 <= 4 /\ 3 <= 4 /\ 4 <= 4 /\ 0 <= 1 /\ 1 <= 1) by lia. clear Hc Ho. destruct C as [C|[C|[C|[C|[C|C]]]]].
    + rewrite (arm_op_field e) by lia. rewrite C. change (0 * 2 ^ 25 <=? 33554432) with true. change (0 * 2 ^ 25 =? 0) with true. cbv iota. rewrite !in_app_iff. destruct (two_registers (field e 21 4 * 2 ^ 21)); destruct (Z.testbit e 4); cbn [In app]; rewrite !Sy; intuition (try congruence; try lia).
    + rewrite (arm_op_field e) by lia. rewrite C. change (1 * 2 ^ 25 <=? 33554432) with true. change (1 * 2 ^ 25 =? 0) with false. cbv iota. rewrite !in_app_iff. destruct (two_registers (field e 21 4 * 2 ^ 21)); cbn [In app]; rewrite !Sy; intuition (try congruence; try lia).
    + rewrite C. change (2 * 2 ^ 25 <=? 33554432) with false. change (2 * 2 ^ 25 =? 67108864) with true. change (2 * 2 ^ 25 =? 100663296) with false. cbn [orb app In]. rewrite !Sy; intuition (try congruence; try lia).
    + rewrite C. change (3 * 2 ^ 25 <=? 33554432) with false. change (3 * 2 ^ 25 =? 67108864) with false. change (3 * 2 ^ 25 =? 100663296) with true. cbn [orb app In]. rewrite !Sy; intuition (try congruence; try lia).
    + rewrite C. change (4 * 2 ^ 25 <=? 33554432) with false. change (4 * 2 ^ 25 =? 67108864) with false. change (4 * 2 ^ 25 =? 100663296) with false. change (4 * 2 ^ 25 =? 134217728) with true. cbn [orb In]. unfold register_list. rewrite filter_In, in_zrange; rewrite !Sy; intuition (try congruence; try lia).
    + replace (field e 25 3 * 2 ^ 25 <=? 33554432) with false by lia. replace (field e 25 3 * 2 ^ 25 =? 67108864) with false by lia. replace (field e 25 3 * 2 ^ 25 =? 100663296) with false by lia. replace (field e 25 3 * 2 ^ 25 =? 134217728) with false by lia. cbn [orb In]. intuition lia.
  - intros l. unfold arm_written. rewrite arm_type_field, arm_rd_field. unfold T_DPI, T_DP, T_LS, T_LSO, T_LSM. 
    destruct (field e 25 3 <=? 3) eqn:E3.
    + replace ((field e 25 3 * 2 ^ 25 =? 33554432) || (field e 25 3 * 2 ^ 25 =? 0) || (field e 25 3 * 2 ^ 25 =? 67108864) || (field e 25 3 * 2 ^ 25 =? 100663296)) with true by lia. intros E. injection E as <-. reflexivity.
    + replace ((field e 25 3 * 2 ^ 25 =? 33554432) || (field e 25 3 * 2 ^ 25 =? 0) || (field e 25 3 * 2 ^ 25 =? 67108864) || (field e 25 3 * 2 ^ 25 =? 100663296)) with false by lia. destruct (field e 25 3 * 2 ^ 25 =? 134217728); intros E; [discriminate|injection E as <-; reflexivity].
  - intros l. unfold arm_read. rewrite arm_type_field. unfold T_LSM. rewrite arm_rn_field, arm_rd_field. destruct (Z.eqb_spec (field e 25 3) 4) as [E4|E4].
    + replace (field e 25 3 * 2 ^ 25 =? 134217728) with true by lia. intros E. injection E as <-. reflexivity.
    + replace (field e 25 3 * 2 ^ 25 =? 134217728) with false by lia. apply remove_first_perm. Qed.
Print Assumptions C33_which.
(** add r1, r2, r3 and cmp r1, r2: field rd of the comparison is 0, which it does not use. *)
Example C33_example : arm_used 0xE0821003 = [2; 1; 3] /\ arm_read 0xE0821003 = Ok [2; 3] /\
  arm_read 0xE1510002 = Err ValueError /\ read_raises 0xE1510002.
Proof. split; [reflexivity|]. split; [reflexivity|]. split; [reflexivity|]. right. vm_compute. intuition congruence. Qed.
