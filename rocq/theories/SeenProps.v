(** C134: what the control flow graph sees of decoded instructions. *)
From Verif Require Import ListLemmas InstModel DarmModel DarmProps.
From Verif Require Export LinkProps.

(** ** Specification *)
(** [v] is the first immediate operand. *)
Definition first_immediate (ops : list operand) (v : Z) : Prop := exists before after, ops = before ++ OImm v :: after /\ forall u, ~ In (OImm u) before.
Lemma first_imm_spec ops v : first_imm ops = Some v <-> first_immediate ops v.
Proof.
  split.
  - induction ops as [|o ops IH]; [discriminate|]. intros E. destruct o as [r|b i|u|]; cbn [first_imm] in E.
    3: { injection E as <-. exists [], ops. split; [reflexivity|intros z []]. }
    all: destruct (IH E) as (x & y & -> & N); eexists (_ :: x), y; split; [reflexivity|]; intros u [Q|Q]; [discriminate|exact (N u Q)].
  - intros (x & y & -> & N). induction x as [|o x IH]; [reflexivity|]. destruct o as [r|b i|u|]; [| |destruct (N u); left; reflexivity|]; cbn [app first_imm]; apply IH; intros u I; apply (N u); right; exact I.
Qed.

(** ** C134 *)
(** Of every capstone instruction the graph sees, in order: whether it is undefined, its
    address, whether it branches, whether it is a call (a branch with bit 24), its condition
    and the first immediate of a branch. *)
Theorem C134_capstone : forall ws program, mapM cfg_word ws = Ok program -> length program = length ws /\ forall i w, nth_error ws i = Some w ->
  exists c, nth_error program i = Some c /\ ci_address c = w_address w /\ (ci_undefined c = true <-> w_cap w = None) /\
  forall q, w_cap w = Some q -> exists b, InstModel.is_branch q = Ok b /\ ci_branch c = b /\ (ci_link c = true <-> b = true /\ Z.testbit (w_encoding w) 24 = true) /\ ci_cond c + 1 = c_cc q /\
    forall v, ci_jump c = Some v <-> b = true /\ first_immediate (c_operands q) v.
Proof.
  intros ws p E. split.
  { clear -E. revert p E. induction ws as [|w ws IH]; intros p E; cbn [mapM] in E; [injection E as <-; reflexivity|]. destruct (cfg_word w); [cbn [bind] in E|discriminate]. destruct (mapM cfg_word ws); [cbn [bind] in E|discriminate]. injection E as <-. cbn [length]. f_equal. now apply IH. }
  intros i w Ei. pose proof (mapM_nth _ _ _ E i) as M. rewrite Ei in M. destruct M as (c & Ec & Nc). exists c. split; [exact Nc|]. unfold cfg_word in Ec. destruct (w_cap w) as [q|] eqn:Ew.
  - destruct (InstModel.is_branch q) as [b|] eqn:Eb; [cbn [bind] in Ec|discriminate]. unfold InstModel.jumping_address in Ec. rewrite Eb in Ec. cbn [bind] in Ec. rewrite link_bit in Ec. assert (X : forall (a b : cinst), Ok a = Ok b -> b = a) by congruence. apply X in Ec. subst c. cbn [ci_address ci_undefined ci_branch ci_link ci_cond ci_jump].
    split; [reflexivity|]. split; [split; discriminate|]. intros q' Q. injection Q as <-. exists b. split; [exact Eb|]. split; [reflexivity|]. split; [apply andb_true_iff|]. split; [lia|].
    intros v. rewrite <- first_imm_spec. destruct b; split; [auto|intros [_ Y]; exact Y|discriminate|intros [Y _]; discriminate].
  - injection Ec as <-. cbn [ci_address ci_undefined]. split; [reflexivity|]. split; [split; reflexivity|]. discriminate.
Qed.
Print Assumptions C134_capstone.
(** The same of darm's instructions; the target is computed, whether or not it branches. *)
Theorem C134_darm : forall ws, exists program, mapM cfg_darm_word ws = Ok program /\ length program = length ws /\ forall i w, nth_error ws i = Some w ->
  exists c, nth_error program i = Some c /\ ci_address c = v_address w /\ (ci_undefined c = true <-> v_darm w = None) /\
  forall d, v_darm w = Some d -> (ci_branch c = true <-> k_type d = 10 \/ k_type d = 11 \/ In 15 (darm_written d)) /\ (ci_link c = true <-> ci_branch c = true /\ Z.testbit (v_encoding w) 24 = true) /\ ci_cond c = k_cond d /\
    ci_jump c = Some (arm_target (v_encoding w) (v_address w)).
Proof.
  induction ws as [|w ws IH]; [exists []; split; [reflexivity|]; split; [reflexivity|]; intros [|i] w X; discriminate|]. destruct IH as (p & Ep & Lp & H).
  assert (exists c, cfg_darm_word w = Ok c /\ ci_address c = v_address w /\ (ci_undefined c = true <-> v_darm w = None) /\
    forall d, v_darm w = Some d -> (ci_branch c = true <-> k_type d = 10 \/ k_type d = 11 \/ In 15 (darm_written d)) /\ (ci_link c = true <-> ci_branch c = true /\ Z.testbit (v_encoding w) 24 = true) /\ ci_cond c = k_cond d /\ ci_jump c = Some (arm_target (v_encoding w) (v_address w))) as (c & Ec & Hc).
  { unfold cfg_darm_word. destruct (v_darm w) as [d|]; [|eexists; split; [reflexivity|]; cbn [ci_address ci_undefined]; split; [reflexivity|]; split; [split; reflexivity|discriminate]].
    destruct (BitsProps.C06_jumping_address (v_encoding w) (v_address w)) as (t & Et & _ & Jt & _). fold (arm_target (v_encoding w) (v_address w)) in Et. rewrite Jt. cbn [bind fst]. rewrite link_bit. eexists. split; [reflexivity|]. cbn [ci_address ci_undefined ci_branch ci_link ci_cond ci_jump].
    split; [reflexivity|]. split; [split; discriminate|]. intros d' Q. injection Q as <-. split; [|split; [apply andb_true_iff|split; [reflexivity|congruence]]].
    unfold darm_branch. rewrite !orb_true_iff, !Z.eqb_eq, zmem_in. unfold PC. tauto. }
  exists (c :: p). cbn [mapM]. rewrite Ec. cbn [bind]. rewrite Ep. cbn [bind]. split; [reflexivity|]. split; [cbn [length]; congruence|]. intros [|i] v X; [injection X as <-; exists c; split; [reflexivity|exact Hc]|exact (H i v X)].
Qed.
Print Assumptions C134_darm.
(** bl, as capstone and as darm decode it. *)
Example C134_example :
  (let q := mkCap InstModel.KOther 2 1 [OImm 64] false true false in let ws := [w_plain 0xE3A00001 0; Word 0x0B00000D 4 (Some q); Word 0xFFFFFFFF 8 None] in
   exists program, mapM cfg_word ws = Ok program /\ nth_error program 1 = Some (Ci false true true 0 4 (Some 64)) /\ first_immediate (c_operands q) 64) /\
  (let d := mkDarm false "bl" None None None None None 0 0 11 ["bl +#52"]%string in mapM cfg_darm_word [DarmWord 0x0B00000D 4 (Some d)] = Ok [Ci false true true 0 4 (Some 64)]).
Proof. split; [eexists; split; [vm_compute; reflexivity|]; split; [reflexivity|]; exists [], []; split; [reflexivity|intros u []]|vm_compute; reflexivity]. Qed.
