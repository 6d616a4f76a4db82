(** C89: how low the score of the control-flow rule can get, and when. *)
From Verif Require Import ListLemmas RulesModel RulesSpec RulesProps.
From Coq Require Import ZifyBool ZifyNat Lqa.
Open Scope Z_scope.

Lemma all_nonneg p x : 0 <= all_at p x.
Proof. unfold all_at. lia. Qed.
Lemma number_le f p x : 0 <= number_at f p x <= all_at p x.
Proof. unfold number_at, all_at. split; [lia|]. apply inj_le. induction (defined_at p x) as [|c l IH]; cbn [filter length]; [lia|]. destruct (f c); cbn [length]; lia. Qed.
Lemma neighbour_nonneg m p x i : (0 <= cond_both m)%Q -> (0 <= neighbour m p x i)%Q.
Proof. intros B. unfold neighbour. destruct (Z.eqb_spec (all_at p x) 0) as [Z0|Z0]; [lra|]. pose proof (all_nonneg p x). pose proof (number_le (has_cond i) p x) as [N _].
  assert (A : (0 < inject_Z (all_at p x))%Q) by (change 0%Q with (inject_Z 0); rewrite <- Zlt_Qlt; lia). apply Qle_shift_div_l; [exact A|]. rewrite Qmult_0_l. apply Qmult_le_0_compat; [exact B|].
  assert (0 <= inject_Z (number_at (has_cond i) p x))%Q by (change 0%Q with (inject_Z 0); rewrite <- Zle_Qle; exact N). lra. Qed.
Lemma gain_nonneg m p i : (0 <= any_jump m)%Q -> (0 <= jump_gain m p i)%Q.
Proof. intros J. unfold jump_gain. destruct (d_branch i); [destruct (d_jump i); [destruct (dmem p z)|]|]; lra. Qed.
Lemma loss_le m p x i : (0 <= cpsr_branch m)%Q -> (0 <= flag_loss m p x i <= cpsr_branch m)%Q.
Proof. intros C. unfold flag_loss. destruct (i =? 14); cbn [andb]; [|lra]. destruct (Z.eqb_spec (all_at p x) 0) as [Z0|Z0]; cbn [negb]; [lra|]. pose proof (all_nonneg p x). pose proof (number_le r_flags p x) as [N N'].
  assert (A : (0 < inject_Z (all_at p x))%Q) by (change 0%Q with (inject_Z 0); rewrite <- Zlt_Qlt; lia). rewrite Zle_Qle in N, N'. change (inject_Z 0) with 0%Q in N. split; [apply Qle_shift_div_l; [exact A|]; nra|apply Qle_shift_div_r; [exact A|]; nra]. Qed.

(** The score of a defined candidate is above minus the weight of a branch behind a
    flag setter; it is not positive only for a candidate without condition behind a
    defined candidate that sets the flags. *)
Theorem C89_lowest : forall m p a c, (0 <= cond_both m)%Q -> (0 <= any_jump m)%Q -> (0 <= cpsr_branch m)%Q -> r_ignore c = false ->
  (- cpsr_branch m < flow_score m p a c)%Q /\
  ((flow_score m p a c <= 0)%Q -> d_cond (r_inst c) = 14 /\ exists x, In x (defined_at p (a - 4)) /\ r_flags x = true).
Proof. intros m p a c B J C I. unfold flow_score. rewrite I. pose proof (neighbour_nonneg m p (a - 4) (d_cond (r_inst c)) B). pose proof (neighbour_nonneg m p (a + 4) (d_cond (r_inst c)) B). pose proof (gain_nonneg m p (r_inst c) J). pose proof (loss_le m p (a - 4) (d_cond (r_inst c)) C) as [L0 L1].
  split; [lra|]. intros N. assert (L : (0 < flag_loss m p (a - 4) (d_cond (r_inst c)))%Q) by lra. unfold flag_loss in L. destruct (Z.eqb_spec (d_cond (r_inst c)) 14) as [E|E]; cbn [andb] in L; [|lra]. split; [exact E|].
  destruct (negb (all_at p (a - 4) =? 0)); [|lra]. destruct (filter r_flags (defined_at p (a - 4))) as [|x l] eqn:F.
  - exfalso. unfold number_at in L. rewrite F in L. cbn [length Z.of_nat] in L. change (inject_Z 0) with 0%Q in L. unfold Qdiv in L. rewrite Qmult_0_r, Qmult_0_l in L. lra.
  - exists x. apply filter_In. rewrite F. left. reflexivity. Qed.
Print Assumptions C89_lowest.
(** The default weights: a candidate without condition that does not jump into the
    program and has no neighbour behind it. *)
Example C89_lowest_example : (0 <= cond_both default_model)%Q /\ (0 <= any_jump default_model)%Q /\ (0 <= cpsr_branch default_model)%Q /\ r_ignore r_b = false /\ (flow_score default_model r_flow 4 r_b < 0)%Q /\ exists x, In x (defined_at r_flow 0) /\ r_flags x = true.
Proof. do 3 (split; [discriminate|]). split; [reflexivity|]. split; [vm_compute; reflexivity|]. eexists. split; [left; reflexivity|reflexivity]. Qed.
