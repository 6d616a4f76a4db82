(** C120-C125: the control flow graph of decoded instructions. *)
From Verif Require Import ListLemmas BitsModel BitsSpec InstModel DarmModel.
From Verif Require InstProps BitsProps.
From Verif Require Export CfgEdgeProps LinkModel.
From Coq Require Import ZifyBool ZifyNat.

(** ** Specification *)
(** Bits [hi] to [lo] of an instruction word. *)
Definition field (e hi lo : Z) : Z := (e / 2 ^ lo) mod 2 ^ (hi - lo + 1).
(** The instructions that save a return address: BL, BLX to an address, BLX to a register. *)
Definition saves_return (e : Z) : Prop :=
  field e 31 28 <> 15 /\ field e 27 24 = 11 \/ field e 31 28 = 15 /\ field e 27 25 = 5 \/ field e 31 28 <> 15 /\ field e 27 4 = 0x12FFF3.
(** B and BL: a branch to an address given in the word. *)
Definition direct (e : Z) : Prop := field e 31 28 <> 15 /\ field e 27 25 = 5.
(** BX: a branch to the address in a register, such as the return [bx lr]. *)
Definition exchange (e : Z) : Prop := field e 31 28 <> 15 /\ field e 27 4 = 0x12FFF1.
(** Where B and BL go. *)
Definition arm_target (e address : Z) : Z := (address + 8 + 4 * sext24 (e mod 2 ^ 24)) mod 2 ^ 32.
(** Instruction number [i] is the first one at the address. *)
Definition first_at (addresses : list Z) (i : nat) (a : Z) : Prop := nth_error addresses i = Some a /\ forall j, (j < i)%nat -> nth_error addresses j <> Some a.

(** ** Proofs *)
Lemma link_bit b e : with_link b e = b && Z.testbit e 24.
Proof. unfold with_link, bits_on. f_equal. destruct (Z.testbit e 24) eqn:T.
  - apply negb_true_iff, Z.eqb_neq. intros X. assert (Y : Z.testbit (Z.land e (2 ^ 24)) 24 = false) by (rewrite X; apply Z.bits_0). rewrite Z.land_spec, T, Z.pow2_bits_true in Y by lia. discriminate.
  - apply negb_false_iff, Z.eqb_eq. apply Z.bits_inj'. intros n N. rewrite Z.land_spec, Z.bits_0. rewrite Z.pow2_bits_eqb by lia. destruct (Z.eqb_spec 24 n) as [<-|]; [rewrite T; reflexivity|apply andb_false_r]. Qed.
Lemma field_bit e hi lo k : 0 <= lo <= k -> k <= hi -> Z.testbit e k = Z.testbit (field e hi lo) (k - lo).
Proof. intros A B. unfold field. rewrite Z.mod_pow2_bits_low by lia. rewrite <- Z.shiftr_div_pow2 by lia. rewrite Z.shiftr_spec by lia. f_equal. lia. Qed.
Lemma field_split e hi mid lo : 0 <= lo -> lo < mid <= hi -> field e hi lo = field e (mid - 1) lo + 2 ^ (mid - lo) * field e hi mid.
Proof. intros A B. unfold field. replace (mid - 1 - lo + 1) with (mid - lo) by lia. replace (hi - lo + 1) with ((mid - lo) + (hi - mid + 1)) by lia. rewrite Z.pow_add_r by lia. rewrite Z.rem_mul_r by (apply Z.pow_nonzero || apply Z.pow_pos_nonneg; lia). f_equal. f_equal. f_equal.
  rewrite Z.div_div by (try apply Z.pow_nonzero; try apply Z.pow_pos_nonneg; lia). rewrite <- Z.pow_add_r by lia. f_equal. f_equal. lia. Qed.
Lemma field_range e hi lo : lo <= hi + 1 -> 0 <= field e hi lo < 2 ^ (hi - lo + 1).
Proof. intros. unfold field. apply Z.mod_pos_bound, Z.pow_pos_nonneg; lia. Qed.

(** ** C120 *)
Theorem C120_link_refuted : (forall e, exchange e -> with_link true e = true /\ ~ saves_return e) /\ exchange 0xE12FFF1E /\ saves_return 0xFA000000 /\ with_link true 0xFA000000 = false.
Proof.
  split; [|split; [split; [discriminate|reflexivity]|split; [right; left; split; reflexivity|reflexivity]]].
  intros e (C & X). split.
  - rewrite link_bit. cbn [andb]. rewrite (field_bit e 27 4 24), X by lia. reflexivity.
  - intros [(_ & H)|[(H & _)|(_ & H)]]; [|contradiction|congruence]. rewrite (field_split e 27 24 4), H in X by lia. pose proof (field_range e 23 4 ltac:(lia)). change (24 - 1) with 23 in X. change (2 ^ (24 - 4)) with 1048576 in X. change (2 ^ (23 - 4 + 1)) with 1048576 in *. lia.
Qed.
Print Assumptions C120_link_refuted.
(** What holds: B and BL.  Missing: the branches through a register or by writing the
    program counter, which all have bit 24 for some other purpose, and BLX to an address. *)
Theorem C120_link_partial : forall e, direct e -> (with_link true e = true <-> saves_return e) /\ with_link false e = false.
Proof.
  intros e (C & D). split; [|reflexivity]. rewrite link_bit. cbn [andb]. rewrite (field_bit e 24 24 24) by lia. pose proof (field_range e 24 24 ltac:(lia)) as R. change (2 ^ (24 - 24 + 1)) with 2 in R.
  pose proof (field_split e 27 25 24 ltac:(lia) ltac:(lia)) as S. rewrite D in S. change (25 - 1) with 24 in S. change (2 ^ (25 - 24)) with 2 in S. change (24 - 24) with 0.
  assert (E : field e 24 24 = 0 \/ field e 24 24 = 1) by lia. destruct E as [E|E]; rewrite E in *.
  - split; [discriminate|]. intros [(_ & H)|[(H & _)|(_ & H)]]; [lia|contradiction|]. exfalso. rewrite (field_split e 27 25 4), D in H by lia. pose proof (field_range e 24 4 ltac:(lia)). change (25 - 1) with 24 in H. change (2 ^ (25 - 4)) with 2097152 in H. change (2 ^ (24 - 4 + 1)) with 2097152 in *. lia.
  - split; [|reflexivity]. intros _. left. split; [exact C|]. lia.
Qed.
Print Assumptions C120_link_partial.
Example C120_example : direct 0xEB000001 /\ with_link true 0xEB000001 = true /\ direct 0xEA000001 /\ with_link true 0xEA000001 = false.
Proof. repeat split; discriminate. Qed.

(** ** C121 *)
Lemma mapM_nth {A B} (f : A -> result B) : forall l l', mapM f l = Ok l' -> forall i, match nth_error l i with Some a => exists b, f a = Ok b /\ nth_error l' i = Some b | None => nth_error l' i = None end.
Proof. induction l as [|a l IH]; intros l' E i; cbn [mapM] in E; [injection E as <-; destruct i; reflexivity|]. destruct (f a) as [b|] eqn:Ef; [|discriminate]. cbn [bind] in E. destruct (mapM f l) as [bs|] eqn:Em; [|discriminate]. cbn [bind] in E. injection E as <-. destruct i as [|i]; cbn [nth_error]; [eauto|]. apply IH. reflexivity. Qed.
Definition w_plain (e a : Z) : word := Word e a (Some (mkCap InstModel.KOther 1 15 [OReg 66; OImm 1] false false false)).
(** [mov r0, #1; bx lr; mov r0, #1]: the graph leads on from the return. *)
Theorem C121_return_refuted : exists ws st i w c, cfg_of ws = Ok st /\ nth_error ws i = Some w /\ exchange (w_encoding w) /\ w_cap w = Some c /\ c_b c = true /\ first_imm (c_operands c) = None /\
  exists b u s, ends_with st b i /\ unknown_node st u = true /\ starts_with st s (S i) /\ edges (c_graph st) b u /\ edges (c_graph st) u s.
Proof.
  set (ws := [w_plain 0xE3A00001 0; Word 0xE12FFF1E 4 (Some (mkCap InstModel.KOther 2 15 [OReg 10] false true false)); w_plain 0xE3A00001 8]).
  exists ws, (match cfg_of ws with Ok s => s | Err _ => Cfg g_empty [] 0 [] end), 1%nat. eexists _, _. split; [vm_compute; reflexivity|]. split; [reflexivity|]. split; [split; [discriminate|reflexivity]|]. split; [reflexivity|]. split; [reflexivity|]. split; [reflexivity|].
  exists 4, 5, 6. vm_compute. split; [split; [auto 10|exists []; reflexivity]|]. split; [reflexivity|]. split; [split; [auto 10|exists []; reflexivity]|]. split; reflexivity.
Qed.
Print Assumptions C121_return_refuted.
(** What holds: after a branch without bit 24, such as [pop {pc}] or [b], the node of the
    unknown target leads to the end only.  Missing: returns with bit 24, [bx lr] and
    [mov pc, lr]. *)
Theorem C121_return_partial : forall ws st i w c b u n, cfg_of ws = Ok st -> nth_error ws i = Some w -> w_cap w = Some c -> InstModel.is_branch c = Ok true -> Z.testbit (w_encoding w) 24 = false ->
  ends_with st b i -> edges (c_graph st) b u -> unknown_node st u = true -> edges (c_graph st) u n -> end_node st n = true.
Proof.
  intros ws st i w c b u n E Ei Ec Eb Tb S X K Y. unfold cfg_of in E. destruct (mapM cfg_word ws) as [p|] eqn:Em; [|discriminate]. cbn [bind] in E.
  pose proof (mapM_nth _ _ _ Em i) as M. rewrite Ei in M. destruct M as (ci & Ew & Np). unfold cfg_word in Ew. rewrite Ec, Eb in Ew. cbn [bind] in Ew. destruct (InstModel.jumping_address c) as [j|]; [|discriminate]. cbn [bind] in Ew. rewrite link_bit, Tb in Ew. cbn [andb] in Ew. injection Ew as <-.
  assert (Br : branches p i) by (eexists; split; [exact Np|reflexivity]). assert (Nl : ~ links p i) by (intros (x & X1 & X2); rewrite Np in X1; injection X1 as <-; discriminate).
  destruct (C117_edges_partial p st E) as (origin & _ & H).
  assert (I : In i (instructions st b)) by (destruct S as (_ & l & ->); apply in_app_iff; right; left; reflexivity). destruct (block_kind p st b i E I) as (A1 & A2 & A3 & A4).
  assert (Nu : forall x, ~ ends_with st u x) by (intros x (_ & l & Q); assert (Iu : In x (instructions st u)) by (rewrite Q; apply in_app_iff; right; left; reflexivity); destruct (block_kind p st u x E Iu) as (_ & B2 & _); congruence).
  assert (Nu' : forall x, ~ starts_with st u x) by (intros x (_ & l & Q); assert (Iu : In x (instructions st u)) by (rewrite Q; left; reflexivity); destruct (block_kind p st u x E Iu) as (_ & B2 & _); congruence).
  assert (Ku : conditional_node st u = false /\ root_node st u = false /\ end_node st u = false) by (unfold conditional_node, unknown_node, root_node, end_node in *; destruct (dget (c_blocks st) u) as [[[] l]|]; try discriminate; auto). destruct Ku as (K1 & K2 & K3).
  assert (O : origin u = i).
  { destruct (H b u X) as [x' y' S' T' F|x' y' k S' T' C Gt Le|x' S' K'|x' S' K' C G|x' S' K'|y' K'|K'|y' K'|K'|K'|y' K'|K'|K']; try congruence; try (exfalso; eapply Nu'; eassumption).
    pose proof (ends_unique _ _ _ _ S S') as <-. destruct C as (D & B & L & C). destruct (Nat.eq_dec (origin u) i) as [|Ne]; [assumption|exfalso]. destruct (C i) as [Nb _]; [lia|eexists; split; [exact Np|reflexivity]|]. contradiction. }
  destruct (H u n Y) as [x' y' S' T' F|x' y' k S' T' C Gt Le|x' S' K'|x' S' K' C G|x' S' K'|y' K'|K'|y' K'|K'|K'|y' K' T L|K' _ L|K']; try congruence; try (exfalso; eapply Nu; eassumption); rewrite O in L; destruct L; contradiction.
Qed.
Print Assumptions C121_return_partial.
Example C121_example : let c := mkCap InstModel.KPop 3 15 [OReg 70; OReg 11] false false false in let ws := [w_plain 0xE3A00001 0; Word 0xE8BD8010 4 (Some c); w_plain 0xE3A00001 8] in
  exists st, cfg_of ws = Ok st /\ InstModel.is_branch c = Ok true /\ Z.testbit 0xE8BD8010 24 = false /\ ends_with st 4 1 /\ edges (c_graph st) 4 5 /\ unknown_node st 5 = true /\ edges (c_graph st) 5 2.
Proof. eexists. split; [vm_compute; reflexivity|]. split; [reflexivity|]. split; [reflexivity|]. vm_compute. split; [split; [auto 10|exists []; reflexivity]|]. repeat split. Qed.

(** ** C122 *)
(** [add pc, pc, #4] at address 8 goes to 20; the graph has an edge to address 4. *)
Theorem C122_target_refuted : exists ws st i j w w' c, cfg_of ws = Ok st /\ nth_error ws i = Some w /\ w_encoding w = 0xE28FF004 /\ w_cap w = Some c /\ c_operands c = [OReg 11; OReg 11; OImm 4] /\
  nth_error ws j = Some w' /\ w_address w' <> w_address w + 8 + 4 /\ next_defined (match mapM cfg_word ws with Ok p => p | Err _ => [] end) j i /\
  exists b s, ends_with st b i /\ starts_with st s j /\ edges (c_graph st) b s.
Proof.
  set (ws := [w_plain 0xE3A00001 0; w_plain 0xE3A00001 4; Word 0xE28FF004 8 (Some (mkCap InstModel.KOther 2 15 [OReg 11; OReg 11; OImm 4] false false false)); w_plain 0xE3A00001 20]).
  exists ws, (match cfg_of ws with Ok s => s | Err _ => Cfg g_empty [] 0 [] end), 2%nat, 1%nat. eexists _, _, _. split; [vm_compute; reflexivity|]. split; [reflexivity|]. split; [reflexivity|]. split; [reflexivity|]. split; [reflexivity|]. split; [reflexivity|]. split; [discriminate|].
  split; [split; [eexists; split; reflexivity|]; split; [eexists; split; reflexivity|]; split; [lia|]; intros k J; lia|].
  exists 4, 3. vm_compute. split; [split; [auto 10|exists []; reflexivity]|]. split; [split; [auto 10|exists []; reflexivity]|]. reflexivity.
Qed.
Print Assumptions C122_target_refuted.
Lemma w_nth ws p : mapM cfg_word ws = Ok p -> forall i w, nth_error ws i = Some w -> exists c, nth_error p i = Some c /\ ci_address c = w_address w /\ cfg_word w = Ok c.
Proof. intros M i w E. pose proof (mapM_nth _ _ _ M i) as H. rewrite E in H. destruct H as (c & Ec & N). exists c. split; [exact N|]. split; [|exact Ec]. unfold cfg_word in Ec. destruct (w_cap w) as [q|]; [|injection Ec as <-; reflexivity]. destruct (InstModel.is_branch q) as [b|]; [|discriminate]. cbn [bind] in Ec. destruct (InstModel.jumping_address q); [|discriminate]. cbn [bind] in Ec. injection Ec as <-. reflexivity. Qed.
Lemma w_addresses ws p : mapM cfg_word ws = Ok p -> map ci_address p = map w_address ws.
Proof. revert p. induction ws as [|w ws IH]; intros p M; cbn [mapM] in M; [injection M as <-; reflexivity|]. destruct (cfg_word w) as [c|] eqn:Ec; [|discriminate]. cbn [bind] in M. destruct (mapM cfg_word ws) as [q|] eqn:Eq; [|discriminate]. cbn [bind] in M. injection M as <-. cbn [map]. rewrite (IH q eq_refl). f_equal.
  unfold cfg_word in Ec. destruct (w_cap w) as [k|]; [|injection Ec as <-; reflexivity]. destruct (InstModel.is_branch k) as [b|]; [|discriminate]. cbn [bind] in Ec. destruct (InstModel.jumping_address k); [|discriminate]. cbn [bind] in Ec. injection Ec as <-. reflexivity. Qed.
(** What holds: a branch whose only immediate is its target leads to the instruction at
    that address when it stands before the branch.  Missing: jumps ahead (C63), and
    immediates that are no target. *)
Theorem C122_target_partial : forall ws st i j w w' c, cfg_of ws = Ok st -> nth_error ws i = Some w -> w_cap w = Some c -> c_b c = true -> c_operands c = [OImm (arm_target (w_encoding w) (w_address w))] ->
  first_at (map w_address ws) j (arm_target (w_encoding w) (w_address w)) -> nth_error ws j = Some w' -> w_cap w' <> None -> (j <= i)%nat ->
  exists b s, holds st b i /\ starts_with st s j /\ path (edges (c_graph st)) b s.
Proof.
  intros ws st i j w w' c E Ei Ec Eb Eo (F1 & F2) Ej Dj L. unfold cfg_of in E. destruct (mapM cfg_word ws) as [p|] eqn:Em; [|discriminate]. cbn [bind] in E. set (t := arm_target (w_encoding w) (w_address w)) in *.
  destruct (w_nth ws p Em i w Ei) as (ci & Ni & Ai & Wi). destruct (w_nth ws p Em j w' Ej) as (cj & Nj & Aj & Wj).
  assert (Bc : InstModel.is_branch c = Ok true) by (unfold InstModel.is_branch; rewrite Eb; reflexivity). unfold cfg_word in Wi. rewrite Ec in Wi. unfold InstModel.jumping_address in Wi. rewrite Bc, Eo in Wi. cbn [bind first_imm] in Wi. injection Wi as <-.
  apply (C63_back_path_partial p st i j E); [| |exact L].
  - eexists _, cj. split; [exact Ni|]. split; [reflexivity|]. split; [reflexivity|]. split; [exact Nj|]. rewrite Aj. rewrite nth_error_map, Ej in F1. cbn in F1. injection F1 as F1. split; [cbn [ci_jump]; congruence|].
    intros k d Lk Ed X. apply (F2 k Lk). rewrite <- (w_addresses ws p Em), nth_error_map, Ed. cbn. congruence.
  - exists cj. split; [exact Nj|]. unfold cfg_word in Wj. destruct (w_cap w') as [q|]; [|contradiction]. destruct (InstModel.is_branch q) as [b|]; [|discriminate]. cbn [bind] in Wj. destruct (InstModel.jumping_address q); [|discriminate]. cbn [bind] in Wj. injection Wj as <-. reflexivity.
Qed.
Print Assumptions C122_target_partial.
Example C122_example : let c := mkCap InstModel.KOther 2 15 [OImm 4] false true false in let ws := [w_plain 0xE3A00001 0; w_plain 0xE3A00001 4; Word 0xEAFFFFFD 8 (Some c)] in
  arm_target 0xEAFFFFFD 8 = 4 /\ direct 0xEAFFFFFD /\ first_at (map w_address ws) 1 4 /\ exists st, cfg_of ws = Ok st /\ ends_with st 4 2 /\ starts_with st 3 1 /\ edges (c_graph st) 4 3.
Proof. split; [reflexivity|]. split; [split; [discriminate|reflexivity]|]. split; [split; [reflexivity|]; intros [|k] L; [discriminate|lia]|]. eexists. split; [vm_compute; reflexivity|]. vm_compute. split; [split; [auto 10|exists []; reflexivity]|]. split; [split; [auto 10|exists []; reflexivity]|]. reflexivity. Qed.

(** ** C123 *)
Definition v_plain (a : Z) : darm_word := DarmWord 0xE3A00001 a (Some (mkDarm false "mov" None (Some 0) None None None 0 14 1 ["mov r0"; " #1"]%string)).
(** [pop {r4, pc}]: a target is computed from the register list. *)
Theorem C123_indirect_refuted : exists ws st i j w d, cfg_of_darm ws = Ok st /\ nth_error ws i = Some w /\ v_darm w = Some d /\ ~ direct (v_encoding w) /\ k_type d <> 10 /\ k_type d <> 11 /\ darm_branch d = true /\ (j < i)%nat /\
  exists b s, ends_with st b i /\ starts_with st s j /\ edges (c_graph st) b s.
Proof.
  set (ws := [v_plain 16121928; v_plain 33554428; DarmWord 0xE8BD8010 33554432 (Some (mkDarm false "pop" None None None None None 0x8010 14 25 ["pop {r4"; " pc}"]%string))]).
  exists ws, (match cfg_of_darm ws with Ok s => s | Err _ => Cfg g_empty [] 0 [] end), 2%nat, 0%nat. eexists _, _. split; [vm_compute; reflexivity|]. split; [reflexivity|]. split; [reflexivity|]. split; [intros [_ X]; discriminate X|]. split; [discriminate|]. split; [discriminate|]. split; [reflexivity|]. split; [lia|].
  exists 4, 3. vm_compute. split; [split; [auto 10|exists []; reflexivity]|]. split; [split; [auto 10|exists [1%nat]; reflexivity]|]. reflexivity.
Qed.
Print Assumptions C123_indirect_refuted.
(** What holds for [DARMInstruction]: every branch, of whatever kind, is taken to go to
    the address computed from its low 24 bits; for B and BL that is the right one.
    Missing: that other branches have no known target. *)
Theorem C123_computed_partial : forall ws st i j w w' d, cfg_of_darm ws = Ok st -> nth_error ws i = Some w -> v_darm w = Some d -> darm_branch d = true ->
  first_at (map v_address ws) j (arm_target (v_encoding w) (v_address w)) -> nth_error ws j = Some w' -> v_darm w' <> None -> (j <= i)%nat ->
  exists b s, holds st b i /\ starts_with st s j /\ path (edges (c_graph st)) b s.
Proof.
  intros ws st i j w w' d E Ei Ed Eb (F1 & F2) Ej Dj L. unfold cfg_of_darm in E. destruct (mapM cfg_darm_word ws) as [p|] eqn:Em; [|discriminate]. cbn [bind] in E.
  assert (Ad : forall k u q, nth_error ws k = Some u -> cfg_darm_word u = Ok q -> ci_address q = v_address u).
  { intros k u q _ Q. unfold cfg_darm_word in Q. destruct (v_darm u); [|injection Q as <-; reflexivity]. destruct (darm_jumping_address (v_encoding u) (v_address u) None); [|discriminate]. cbn [bind] in Q. injection Q as <-. reflexivity. }
  pose proof (mapM_nth _ _ _ Em i) as Mi. rewrite Ei in Mi. destruct Mi as (ci & Wi & Ni). pose proof (mapM_nth _ _ _ Em j) as Mj. rewrite Ej in Mj. destruct Mj as (cj & Wj & Nj). pose proof (Ad j w' cj Ej Wj) as Aj.
  destruct (BitsProps.C06_jumping_address (v_encoding w) (v_address w)) as (t & Et & _ & Jt & _). fold (arm_target (v_encoding w) (v_address w)) in Et. unfold cfg_darm_word in Wi. rewrite Ed, Jt in Wi. cbn [bind fst] in Wi. rewrite Eb in Wi. injection Wi as <-.
  apply (C63_back_path_partial p st i j E); [| |exact L].
  - eexists _, cj. split; [exact Ni|]. split; [reflexivity|]. split; [reflexivity|]. split; [exact Nj|]. rewrite Aj. rewrite nth_error_map, Ej in F1. cbn in F1. injection F1 as F1. split; [cbn [ci_jump]; congruence|].
    intros k q Lk Eq X. pose proof (mapM_nth _ _ _ Em k) as Mk. destruct (nth_error ws k) as [u|] eqn:Eu; [|rewrite Mk in Eq; discriminate]. destruct Mk as (q' & Wq & Nq). assert (q' = q) as -> by congruence. apply (F2 k Lk). rewrite nth_error_map, Eu. cbn. rewrite <- (Ad k u q Eu Wq). congruence.
  - exists cj. split; [exact Nj|]. unfold cfg_darm_word in Wj. destruct (v_darm w') as [q|]; [|contradiction]. destruct (darm_jumping_address (v_encoding w') (v_address w') None); [|discriminate]. cbn [bind] in Wj. injection Wj as <-. reflexivity.
Qed.
Print Assumptions C123_computed_partial.
Example C123_example : let d := mkDarm false "b" None None None None None 0 14 10 ["b +#-4"]%string in let ws := [v_plain 0; v_plain 4; DarmWord 0xEAFFFFFD 8 (Some d)] in
  arm_target 0xEAFFFFFD 8 = 4 /\ darm_branch d = true /\ first_at (map v_address ws) 1 4 /\ exists st, cfg_of_darm ws = Ok st /\ ends_with st 4 2 /\ starts_with st 3 1 /\ edges (c_graph st) 4 3.
Proof. split; [reflexivity|]. split; [reflexivity|]. split; [split; [reflexivity|]; intros [|k] L; [discriminate|lia]|]. eexists. split; [vm_compute; reflexivity|]. vm_compute. split; [split; [auto 10|exists []; reflexivity]|]. split; [split; [auto 10|exists []; reflexivity]|]. reflexivity. Qed.

(** ** C124 *)
Definition core_registers (c : cap) : Prop := InstSpec.wf_cap c /\ InstSpec.known_memory c.
Theorem C124_builds : forall ws, (forall w c, In w ws -> w_cap w = Some c -> core_registers c) ->
  exists st, cfg_of ws = Ok st /\
    (forall i, (exists w c, nth_error ws i = Some w /\ w_cap w = Some c) <-> exists b, holds st b i) /\
    (forall i b b', holds st b i -> holds st b' i -> b = b').
Proof.
  intros ws H. assert (M : exists p, mapM cfg_word ws = Ok p).
  { induction ws as [|w ws IH]; [exists []; reflexivity|]. destruct IH as (p & Ep); [intros v c I; apply H; right; exact I|]. cbn [mapM]. rewrite Ep.
    assert (exists c, cfg_word w = Ok c) as (c & ->); [|cbn [bind]; eauto]. unfold cfg_word. destruct (w_cap w) as [c|] eqn:Ec; [|eauto]. destruct (H w c (or_introl eq_refl) Ec) as [W K].
    destruct (InstProps.C30_registers_used_partial c W) as (U & _). destruct (U K) as (l & El & _). destruct (InstProps.C30_written_and_read c l El) as (wr & r & Ew & _).
    assert (exists b, InstModel.is_branch c = Ok b) as (b & Eb) by (unfold InstModel.is_branch; rewrite Ew; destruct (c_b c); cbn [rmap]; eauto).
    unfold InstModel.jumping_address. rewrite Eb. cbn [bind]. eauto. }
  destruct M as (p & Ep). destruct (C62_partition p) as (st & Eb & Ex & Dx & _). exists st. split; [unfold cfg_of; rewrite Ep; exact Eb|].
  assert (D : forall i, (exists w c, nth_error ws i = Some w /\ w_cap w = Some c) <-> defined_at p i).
  { intros i. pose proof (mapM_nth _ _ _ Ep i) as Mi. split.
    - intros (w & c & Ei & Ec). rewrite Ei in Mi. destruct Mi as (q & Wq & Nq). exists q. split; [exact Nq|]. unfold cfg_word in Wq. rewrite Ec in Wq. destruct (InstModel.is_branch c) as [b|]; [|discriminate]. cbn [bind] in Wq. destruct (InstModel.jumping_address c); [|discriminate]. cbn [bind] in Wq. injection Wq as <-. reflexivity.
    - intros (q & Nq & U). destruct (nth_error ws i) as [w|] eqn:Ei; [|congruence]. destruct Mi as (q' & Wq & Nq'). assert (q' = q) as -> by congruence. exists w. unfold cfg_word in Wq. destruct (w_cap w) as [c|]; [eauto|]. injection Wq as <-. discriminate. }
  split.
  - intros i. rewrite D. split; [intros X; destruct (Ex i X) as (b & B & _); eauto|intros (b & B); eauto].
  - intros i b b' B B'. destruct (Ex i (Dx b i B)) as (b0 & _ & U). rewrite <- (U b B), <- (U b' B'). reflexivity.
Qed.
Print Assumptions C124_builds.
Example C124_example : let c := mkCap InstModel.KOther 9 15 [OReg 67; OMem 12 0] false false false in core_registers c /\ exists st, cfg_of [Word 0xE59D1000 0 (Some c); Word 0xFFFFFFFF 4 None] = Ok st /\ holds st 3 0.
Proof.
  split; [|eexists; split; [vm_compute; reflexivity|]; vm_compute; split; auto 10]. split; [intros code [X|[X|[]]]; [injection X as <-|]; discriminate|].
  intros b i [X|[X|[]]]; [discriminate|injection X as <- <-]. split; [right; exists 13; right; right; right; auto|left; reflexivity].
Qed.

(** ** C125 *)
(** A store of the program counter, [str pc, [r1]], is taken for a branch; a load that
    writes it after another register, [ldm r0, {r1, pc}], is not. *)
Theorem C125_branches_refuted :
  (let str := mkCap InstModel.KOther 2 15 [OReg 11; OMem 67 0] true false false in core_registers str /\ writes_memory str = true /\ InstModel.is_branch str = Ok true) /\
  (let ldm := mkCap InstModel.KOther 3 15 [OReg 66; OReg 67; OReg 11] false false false in core_registers ldm /\ InstModel.is_branch ldm = Ok false).
Proof.
  split; (split; [|auto]); (split; [intros code X; cbn in X; repeat (destruct X as [X|X]; [try discriminate X; injection X as <-; discriminate|]); destruct X|]); intros b i X; cbn in X.
  - destruct X as [X|[X|[]]]; [discriminate|injection X as <- <-]. split; [right; exists 1; left; lia|left; reflexivity].
  - repeat (destruct X as [X|X]; [discriminate X|]). destruct X.
Qed.
Print Assumptions C125_branches_refuted.
(** What holds: the exact rule.  Missing: that it agrees with the instructions that write
    the program counter. *)
Definition starts_with_pc (c : cap) : Prop := exists l, registers_used c = Ok (15 :: l).
Theorem C125_branches_partial : forall c l, registers_used c = Ok l ->
  exists b, InstModel.is_branch c = Ok b /\
    (b = true <-> c_b c = true \/ (c_kind c = InstModel.KPop /\ In 15 l) \/ (c_kind c = InstModel.KOther /\ starts_with_pc c)).
Proof.
  intros c l E. unfold InstModel.is_branch, registers_written, starts_with_pc. rewrite E. assert (Z15 : forall l, zmem PC l = true <-> In 15 l) by (intros k; unfold zmem; rewrite existsb_exists; unfold PC; split; [intros (x & I & X); replace 15 with x by lia; exact I|intros I; exists 15; split; [exact I|reflexivity]]).
  destruct (c_b c); [exists true; split; [reflexivity|]; split; auto|]. destruct (c_kind c); cbn [rmap].
  - exists false. split; [reflexivity|]. split; [discriminate|]. intros [X|[[X _]|[X _]]]; discriminate X.
  - exists (zmem PC l). split; [reflexivity|]. rewrite Z15. split; [auto|]. intros [X|[[_ X]|[X _]]]; [discriminate X|exact X|discriminate X].
  - exists (zmem PC (firstn 1 l)). split; [reflexivity|]. rewrite Z15. destruct l as [|a l]; cbn [firstn In].
    + split; [intros []|]. intros [X|[[X _]|[_ (k & X)]]]; discriminate X.
    + split; [intros [->|[]]; right; right; split; [reflexivity|eauto]|]. intros [X|[[X _]|[_ (k & X)]]]; [discriminate X|discriminate X|]. left. congruence.
Qed.
Print Assumptions C125_branches_partial.
Example C125_example : let pop := mkCap InstModel.KPop 3 15 [OReg 70; OReg 11] false false false in registers_used pop = Ok [13; 4; 15] /\ InstModel.is_branch pop = Ok true /\ InstModel.is_branch (mkCap InstModel.KOther 2 15 [OReg 11; OReg 10] false false false) = Ok true.
Proof. repeat split. Qed.
