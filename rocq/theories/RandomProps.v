(** Property theorems C27 and C28 (random corruption). *)
From Verif Require Import ListLemmas FlipModel FlipSpec FlipProofs FlipProofs2 PacketModel RandomModel RandomSpec RandomProofs RandomFloat.
From Coq Require Import ZifyBool ZifyNat.

(** C27, for every disassembler [undefined], program, flags, amount and random draws. *)
Theorem C27_corrupt_instruction : forall undefined prog orig address conditional registers opcode amount ds prog' ds',
  0 <= amount ->
  corrupt_instruction undefined prog orig address conditional registers opcode amount ds = Ok (prog', ds') ->
  exists l new, dget prog address = Some l /\ dget prog' address = Some (l ++ new) /\
    dkeys prog' = dkeys prog /\ (forall a, a <> address -> dget prog' a = dget prog a) /\
    NoDup (map i_enc new) /\ ~ In (i_enc orig) (map i_enc new) /\
    Forall (fun j => i_addr j = i_addr orig /\ undefined (i_enc j) (i_addr j) = false /\
                     same_outside (requested conditional registers opcode) (i_enc orig) (i_enc j) /\
                     differ_at_most amount (i_enc orig) (i_enc j)) new.
Proof. intros undefined prog orig address c r o amount ds prog' ds' Ha H.
  apply corrupt_instruction_spec in H; [|exact Ha]. destruct H as (cs & Hd & N & F & l & G & G' & O & K).
  exists l, (map (fun c => mkInst c (i_addr orig)) (filter (fun c => negb (undefined c (i_addr orig))) (tl cs))).
  destruct cs as [|e cs]; [discriminate|]. assert (e = i_enc orig) as -> by (cbn in Hd; congruence). cbn [tl] in *.
  inversion N as [|? ? Ne N']; subst. inversion F as [|? ? _ F']; subst.
  split; [exact G|]. split; [exact G'|]. split; [exact K|]. split; [exact O|].
  rewrite map_map; cbn [i_enc]; rewrite map_id.
  split; [apply NoDup_filter, N'|]. split; [intros Hin; apply filter_In in Hin; tauto|].
  apply Forall_forall. intros j Hj. apply in_map_iff in Hj. destruct Hj as (c' & <- & Hc). apply filter_In in Hc. destruct Hc as [Hc Hu].
  cbn [i_addr i_enc]. rewrite Forall_forall in F'. specialize (F' c' Hc).
  split; [reflexivity|]. split; [apply negb_true_iff, Hu|]. split; [eapply near_outside; eauto|eapply near_most; eauto]. Qed.
Print Assumptions C27_corrupt_instruction.
(** A push at address 4 with a previous candidate, two condition bits and one
    register bit, where 0xf92d4800 would be undefined. *)
Example C27_example :
  corrupt_instruction (fun e _ => e =? 0xf92d4800) [(0, [mkInst 1 0]); (4, [mkInst 0xe92d4800 4; mkInst 7 4])] (mkInst 0xe92d4800 4) 4
    true true false 3 [0; 1; 1; 2; 0; 2; 3; 4; 5; 6; 7; 8; 9]
  = Ok ([(0, [mkInst 1 0]); (4, [mkInst 0xe92d4800 4; mkInst 7 4; mkInst 0xe92d4808 4; mkInst 0xf92d4810 4; mkInst 0xa92d4800 4;
       mkInst 0xa92d4820 4; mkInst 0xb92d4800 4; mkInst 0xb92d4840 4])], [7; 8; 9]).
Proof. vm_compute. reflexivity. Qed.

(** The function does not return when more condition bits are asked for than exist. *)
Theorem C27_too_many_bits : forall undefined prog orig address amount ds,
  4 < amount -> corrupt_instruction undefined prog orig address true false false amount ds = Err OutOfFuel.
Proof. intros undefined prog orig address amount ds Ha. unfold corrupt_instruction, distribute_random_amount. cbn [Z.eqb Pos.eqb bind].
  change (Z.to_nat (1 - 1)) with 0%nat. unfold nth_r; cbn [nth_error bind]. unfold corrupt_conditional.
  rewrite corrupt_bits_diverges by lia. reflexivity. Qed.
Print Assumptions C27_too_many_bits.

(** C28 asks for the ceiling of n * percent / 100 addresses.  False: percent / 100
    is rounded before it is multiplied; 28 percent of 25 addresses are 8 addresses. *)
Definition program25 : program := map (fun k => (4 * k, [mkInst (100 + k) (4 * k)])) (zrange 0 25).
Definition draws25 : list Z := flat_map (fun k => [k; 0; 0]) (zrange 0 8).
Theorem C28_amount_refuted : exists prog percent maxa ds prog',
  NoDup (dkeys prog) /\ corrupt_program prog (float_of_int percent) maxa ds = Ok (prog', []) /\
  exists changed, corrupted_at (Z.max 1 maxa) prog prog' changed /\
    Z.of_nat (length changed) <> share (Z.of_nat (length prog)) percent.
Proof. exists program25, 28, 1, draws25.
  destruct (corrupt_program program25 (float_of_int 28) 1 draws25) as [[prog' ds']|] eqn:E.
  2:{ exfalso. revert E. vm_compute. discriminate. }
  exists prog'. split; [unfold program25, dkeys; rewrite map_map; cbn [fst]; apply nodup_map_in; [apply zrange_nodup|intros; lia]|].
  assert (D : rmap snd (corrupt_program program25 (float_of_int 28) 1 draws25) = Ok []) by (vm_compute; reflexivity).
  rewrite E in D. cbn [rmap snd] in D. assert (ds' = []) as -> by congruence. split; [reflexivity|].
  unfold corrupt_program in E.
  assert (A : corrupted_amount (Z.of_nat (length program25)) (float_of_int 28) = Ok 8) by (vm_compute; reflexivity).
  rewrite A in E. cbn [bind] in E. apply corrupt_loop_spec in E; [|lia]. destruct E as (changed & C & L & _).
  exists changed. split; [exact C|]. change (share (Z.of_nat (length program25)) 28) with 7. lia. Qed.
Print Assumptions C28_amount_refuted.

(** The lowest address (2^63-1 for an empty program). *)
Definition lowest (prog : program) : Z := fold_right Z.min (2 ^ 63 - 1) (dkeys prog).
Lemma lowest_min prog : min_address prog = lowest prog.
Proof. unfold min_address, lowest. set (f := fun m k => if m >? k then k else m). assert (H : forall l m, fold_left f l m = fold_right Z.min m l).
  { induction l as [|k l IH]; intros m; [reflexivity|]. cbn [fold_left fold_right]. rewrite IH. clear IH. unfold f. assert (G : forall x, fold_right Z.min (Z.min m x) l = Z.min x (fold_right Z.min m l)) by (intros x; induction l as [|y l IH]; cbn [fold_right]; [lia|rewrite IH; lia]).
    rewrite <- G. f_equal. destruct (m >? k) eqn:E; lia. }
  apply H. Qed.

(** For whole percentages (and sizes below 2^50) the number of addresses is the
    ceiling, or one more, and the latter only if n * percent / 100 is a whole number;
    they had one candidate and lie 4 bytes apart from the lowest address, the original
    stays first, encodings are pairwise different, other addresses are untouched.
    Missing: never one more. *)
Theorem C28_corrupt_program_partial : forall prog percent maxa ds prog' ds', let n := Z.of_nat (length prog) in
  0 <= percent < 2 ^ 53 -> n < 2 ^ 53 -> n * percent <= 2 ^ 50 -> corrupt_program prog (float_of_int percent) maxa ds = Ok (prog', ds') ->
  exists changed, corrupted_at (Z.max 1 maxa) prog prog' changed /\
    share n percent <= Z.of_nat (length changed) <= share n percent + 1 /\
    (Z.of_nat (length changed) <> share n percent -> (n * percent) mod 100 = 0) /\
    Forall (fun a => exists k, 0 <= k <= n /\ a = lowest prog + 4 * k) changed.
Proof. intros prog percent maxa ds prog' ds' n Hp Hn S H. unfold corrupt_program in H. fold n in H.
  destruct (amount_near n percent ltac:(lia) Hp S) as (count & E & R & Ex). rewrite E in H. cbn [bind] in H.
  apply corrupt_loop_spec in H; [|lia]. destruct H as (changed & C & L & F). exists changed. split; [exact C|].
  assert (1 <= share n percent) by (unfold share; lia). replace (Z.of_nat (length changed)) with count by lia. rewrite <- lowest_min. auto. Qed.
Print Assumptions C28_corrupt_program_partial.
(** Everything but the number holds for every percentage (any float). *)
Theorem C28_any_percentage : forall prog percent maxa ds prog' ds',
  corrupt_program prog percent maxa ds = Ok (prog', ds') ->
  exists count changed, corrupted_amount (Z.of_nat (length prog)) percent = Ok count /\
    corrupted_at (Z.max 1 maxa) prog prog' changed /\ Z.of_nat (length changed) = Z.max 0 count /\
    Forall (fun a => exists k, 0 <= k <= Z.of_nat (length prog) /\ a = lowest prog + 4 * k) changed.
Proof. intros prog percent maxa ds prog' ds' H. unfold corrupt_program in H.
  destruct (corrupted_amount (Z.of_nat (length prog)) percent) as [count|]; cbn [bind] in H; [|discriminate].
  apply corrupt_loop_spec in H; [|lia]. destruct H as (changed & C & L & F). exists count, changed. rewrite <- lowest_min. auto. Qed.
Print Assumptions C28_any_percentage.
Example C28_example :
  rmap fst (corrupt_program [(8, [mkInst 5 8]); (4, [mkInst 6 4; mkInst 7 4]); (12, [mkInst 9 12])] (float_of_int 50) 2 [0; 7; 1; 1; 0; 1; 2; 0; 3])
  = Ok [(8, [mkInst 5 8; mkInst 4 8; mkInst 7 8; mkInst 6 8]); (4, [mkInst 6 4; mkInst 7 4]); (12, [mkInst 9 12; mkInst 1 12])].
Proof. vm_compute. reflexivity. Qed.
