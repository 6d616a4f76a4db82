(** Lemmas about instruction queries. *)
From Verif Require Import ListLemmas FlipModel FlipProofs InstModel InstSpec.
From Coq Require Import ZifyBool ZifyNat.

Lemma append_new_in l r x : In x (append_new l r) <-> In x l \/ x = r.
Proof. unfold append_new. destruct (zmem r l) eqn:E; [apply zmem_in in E|rewrite in_app_iff; cbn]; intuition congruence. Qed.
Lemma append_new_nodup l r : NoDup l -> NoDup (append_new l r).
Proof. intros N. unfold append_new. destruct (zmem r l) eqn:E; [exact N|]. apply zmem_false in E.
  apply NoDup_app_intro; [exact N|repeat constructor; auto|]. intros y Hy [<-|[]]. contradiction. Qed.

Lemma capstone_reg_spec code : match capstone_reg code with
  | Some r => (code = 0 /\ r = 0) \/ arm_number code r
  | None => code <> 0 /\ ~ arm_code code end.
Proof. unfold capstone_reg, arm_code, arm_number, LR, PC, SP. destruct (Z.eqb_spec code 0) as [->|N0]; [left; auto|].
  destruct ((66 <=? code) && (code <=? 78)) eqn:E1; [right; left; lia|].
  destruct (Z.eqb_spec code 10) as [->|N1]; [right; right; left; auto|].
  destruct (Z.eqb_spec code 11) as [->|N2]; [right; right; right; left; auto|].
  destruct (Z.eqb_spec code 12) as [->|N3]; [right; right; right; right; auto|].
  split; [exact N0|]. intros (r & H). lia. Qed.

Lemma arm_number_fun code r r' : arm_number code r -> arm_number code r' -> r = r'.
Proof. unfold arm_number. lia. Qed.

Lemma capstone_reg_number code r : arm_number code r -> capstone_reg code = Some r.
Proof. intros H. pose proof (capstone_reg_spec code) as S. destruct (capstone_reg code) as [r'|].
  - destruct S as [[-> _]|S]; [unfold arm_number in H; lia|]. f_equal. eapply arm_number_fun; eauto.
  - exfalso. apply (proj2 S). exists r. exact H. Qed.

Definition op_names (o : operand) (r : Z) : Prop :=
  match o with
  | OReg code => arm_number code r \/ (~ arm_code code /\ r = 20 + code)
  | OMem b i => r <> 0 /\ (arm_number b r \/ arm_number i r)
  | _ => False
  end.
Definition op_known (o : operand) : Prop :=
  match o with OMem b i => (b = 0 \/ arm_code b) /\ (i = 0 \/ arm_code i) | _ => True end.
Definition op_wf (o : operand) : Prop := match o with OReg code => code <> 0 | _ => True end.

Lemma mem_reg code : (code = 0 \/ arm_code code) ->
  exists r, capstone_reg_r code = Ok r /\ forall x, (x <> 0 /\ arm_number code x) <-> (r <> 0 /\ x = r).
Proof. intros H. pose proof (capstone_reg_spec code) as S. unfold capstone_reg_r. destruct (capstone_reg code) as [r|].
  - exists r. split; [reflexivity|]. intros x. destruct S as [[-> ->]|S].
    + split; [intros [_ Hx]; unfold arm_number in Hx; lia|lia].
    + split; [intros [Hx Hn]; assert (x = r) by (eapply arm_number_fun; eauto); lia|intros [Hr ->]; auto].
  - exfalso. destruct S as [A B]. destruct H; contradiction. Qed.

Lemma mem_reg_err code : ~ (code = 0 \/ arm_code code) -> capstone_reg_r code = Err KeyError.
Proof. intros H. pose proof (capstone_reg_spec code) as S. unfold capstone_reg_r. destruct (capstone_reg code) as [r|]; [|reflexivity].
  exfalso. apply H. destruct S as [[-> _]|S]; [left; reflexivity|right; exists r; exact S]. Qed.

Lemma arm_code_dec code : arm_code code \/ ~ arm_code code.
Proof. pose proof (capstone_reg_spec code) as S. destruct (capstone_reg code) as [r|]; [|right; apply S].
  destruct S as [[-> _]|S]; [right; intros (x & Hx); unfold arm_number in Hx; lia|left; exists r; exact S]. Qed.

Lemma use_operand_spec l o : NoDup l -> op_wf o ->
  (op_known o -> exists l', use_operand l o = Ok l' /\ NoDup l' /\ forall r, In r l' <-> In r l \/ op_names o r) /\
  (~ op_known o -> use_operand l o = Err KeyError).
Proof. intros N W. destruct o as [code|b i|v|]; cbn [use_operand op_names op_known op_wf] in *.
  - split; [intros _|tauto]. eexists. split; [reflexivity|]. split; [apply append_new_nodup, N|]. intros r. rewrite append_new_in.
    pose proof (capstone_reg_spec code) as S. destruct (capstone_reg code) as [r'|].
    + destruct S as [[S _]|S]; [contradiction|]. split; [intros [H| ->]; auto|]. intros [H|[H|[H _]]]; [auto| |exfalso; apply H; exists r'; exact S].
      right. eapply arm_number_fun; eauto.
    + unfold STORAGE_COUNT. destruct S as [_ S]. split; [intros [H| ->]; auto|]. intros [H|[H|[_ H]]]; [auto|exfalso; apply S; exists r; exact H|auto].
  - split.
    + intros [Kb Ki]. destruct (mem_reg b Kb) as (rb & Eb & Sb). destruct (mem_reg i Ki) as (ri & Ei & Si). rewrite Eb. cbn [bind]. rewrite Ei. cbn [bind].
      eexists. split; [reflexivity|]. split.
      * destruct (ri =? 0); [|apply append_new_nodup]; destruct (rb =? 0); try exact N; apply append_new_nodup, N.
      * intros r. specialize (Sb r). specialize (Si r).
        assert (Hi : forall l0, In r (if ri =? 0 then l0 else append_new l0 ri) <-> In r l0 \/ (ri <> 0 /\ r = ri))
          by (intros l0; destruct (Z.eqb_spec ri 0); [|rewrite append_new_in]; tauto).
        assert (Hb : In r (if rb =? 0 then l else append_new l rb) <-> In r l \/ (rb <> 0 /\ r = rb))
          by (destruct (Z.eqb_spec rb 0); [|rewrite append_new_in]; tauto).
        rewrite Hi, Hb. tauto.
    + intros H. destruct (arm_code_dec b) as [Kb|Kb]; [|destruct (Z.eq_dec b 0) as [->|Nb]].
      * destruct (mem_reg b (or_intror Kb)) as (rb & Eb & _). rewrite Eb. cbn [bind]. rewrite mem_reg_err; [reflexivity|tauto].
      * cbn. rewrite mem_reg_err; [reflexivity|tauto].
      * rewrite mem_reg_err; [reflexivity|tauto].
  - split; [intros _|tauto]. exists l. split; [reflexivity|]. split; [exact N|]. intros r; tauto.
  - split; [intros _|tauto]. exists l. split; [reflexivity|]. split; [exact N|]. intros r; tauto. Qed.

Lemma op_known_dec o : op_known o \/ ~ op_known o.
Proof. destruct o as [code|b i|v|]; cbn; try tauto.
  destruct (arm_code_dec b), (arm_code_dec i), (Z.eq_dec b 0), (Z.eq_dec i 0); tauto. Qed.

Lemma use_operands_spec ops : forall l, NoDup l -> Forall op_wf ops ->
  (Forall op_known ops -> exists l', foldM use_operand ops l = Ok l' /\ NoDup l' /\ forall r, In r l' <-> In r l \/ exists o, In o ops /\ op_names o r) /\
  (~ Forall op_known ops -> foldM use_operand ops l = Err KeyError).
Proof. induction ops as [|o ops IH]; intros l N W.
  - split; [intros _|intros H; exfalso; apply H; constructor]. exists l. split; [reflexivity|]. split; [exact N|]. intros r. split; [auto|intros [H|(o & [] & _)]; exact H].
  - inversion W as [|? ? Wo W']; subst. destruct (use_operand_spec l o N Wo) as [A B]. cbn [foldM]. split.
    + intros K. inversion K as [|? ? Ko K']; subst. destruct (A Ko) as (l1 & -> & N1 & I1). cbn [bind].
      destruct (proj1 (IH l1 N1 W') K') as (l2 & -> & N2 & I2). exists l2. split; [reflexivity|]. split; [exact N2|].
      intros r. rewrite I2, I1. split.
      * intros [[H|H]|(o' & Ho & H)]; [auto|right; exists o; cbn; auto|right; exists o'; cbn; auto].
      * intros [H|(o' & [<-|Ho] & H)]; [auto|auto|right; exists o'; auto].
    + intros K. destruct (op_known_dec o) as [Ko|Ko]; [|rewrite B by exact Ko; reflexivity].
      destruct (A Ko) as (l1 & -> & N1 & I1). cbn [bind]. apply (IH l1 N1 W'). intros H. apply K. constructor; assumption. Qed.

Lemma start_nodup c : NoDup (if is_push_pop c then [SP] else []).
Proof. destruct (is_push_pop c); repeat constructor; auto. Qed.

Lemma wf_ops c : wf_cap c -> Forall op_wf (c_operands c).
Proof. intros W. apply Forall_forall. intros [code|b i|v|] H; cbn; auto; apply W, H. Qed.
Lemma known_ops c : known_memory c <-> Forall op_known (c_operands c).
Proof. rewrite Forall_forall. split.
  - intros K [code|b i|v|] H; cbn; auto.
  - intros K b i H. apply (K _ H). Qed.

Lemma registers_used_spec c : wf_cap c ->
  (known_memory c -> exists l, registers_used c = Ok l /\ NoDup l /\
     forall r, In r l <-> (stack_op c /\ r = 13) \/ as_register c r \/ (in_memory c r /\ r <> 0)) /\
  (~ known_memory c -> registers_used c = Err KeyError).
Proof. intros W. unfold registers_used. destruct (use_operands_spec (c_operands c) _ (start_nodup c) (wf_ops c W)) as [A B].
  split; [|rewrite known_ops; exact B]. rewrite known_ops. intros K. destruct (A K) as (l & E & N & I). exists l. split; [exact E|]. split; [exact N|].
  intros r. rewrite I.
  assert (S : In r (if is_push_pop c then [SP] else []) <-> (stack_op c /\ r = 13)).
  { unfold is_push_pop, stack_op, SP. destruct (c_kind c); cbn; split; intros H; try tauto; try (destruct H as [<-|[]]; split; [discriminate|reflexivity]);
    try (destruct H as [_ ->]; auto). }
  rewrite S. split.
  - intros [H|([code|b i|v|] & Ho & H)]; cbn in H; [auto| | |contradiction|contradiction].
    + right; left. exists code. auto.
    + right; right. split; [exists b, i; tauto|tauto].
  - intros [H|[(code & Ho & H)|[(b & i & Ho & H) Hr]]]; [auto| |]; right.
    + exists (OReg code). auto.
    + exists (OMem b i). cbn. auto. Qed.

Lemma firstn1_in {A} (l : list A) x : In x (firstn 1 l) -> In x l.
Proof. destruct l; cbn; tauto. Qed.
Lemma skipn1_in {A} (l : list A) x : In x (skipn 1 l) -> In x l.
Proof. destruct l; cbn; tauto. Qed.

Lemma written_sub c l w x : registers_used c = Ok l -> registers_written c = Ok w -> In x w -> In x l.
Proof. intros E H Hx. unfold registers_written in H. destruct (c_kind c).
  - assert (w = []) as -> by congruence. contradiction.
  - congruence.
  - rewrite E in H. cbn [rmap] in H. assert (w = firstn 1 l) as -> by congruence. apply firstn1_in, Hx. Qed.
Lemma written_ok c l : registers_used c = Ok l -> exists w, registers_written c = Ok w.
Proof. intros E. unfold registers_written. rewrite E. destruct (c_kind c); eexists; reflexivity. Qed.
Lemma read_sub c l w x : registers_used c = Ok l -> registers_read c = Ok w -> In x w -> In x l \/ (x = 13 /\ stack_op c).
Proof. intros E H Hx. unfold registers_read in H. rewrite E in H. unfold is_pop, is_push_pop, stack_op in *. destruct (c_kind c); cbn [bind rmap] in H.
  - assert (w = append_new (skipn 1 l) SP) as -> by congruence. apply append_new_in in Hx. destruct Hx as [Hx| ->]; [left; apply skipn1_in, Hx|right; split; [reflexivity|discriminate]].
  - assert (w = append_new [] SP) as -> by congruence. apply append_new_in in Hx. destruct Hx as [[]| ->]. right; split; [reflexivity|discriminate].
  - assert (w = skipn 1 l) as -> by congruence. left; apply skipn1_in, Hx. Qed.
Lemma read_ok c l : registers_used c = Ok l -> exists w, registers_read c = Ok w.
Proof. intros E. unfold registers_read. rewrite E. unfold is_pop, is_push_pop. destruct (c_kind c); cbn; eexists; reflexivity. Qed.

Lemma used_values c l x : registers_used c = Ok l -> In x l -> 0 <= x <= 15 \/ exists code, x = 20 + code /\ ~ arm_code code /\ In (OReg code) (c_operands c).
Proof. intros E. unfold registers_used in E.
  assert (G : forall ops l0 l1, foldM use_operand ops l0 = Ok l1 -> In x l1 -> In x l0 \/ 0 <= x <= 15 \/ exists code, x = 20 + code /\ ~ arm_code code /\ In (OReg code) ops).
  { clear. induction ops as [|o ops IH]; intros l0 l1 H Hx; cbn [foldM] in H.
    - assert (l1 = l0) as -> by congruence. auto.
    - destruct (use_operand l0 o) as [l2|] eqn:E; cbn [bind] in H; [|discriminate].
      destruct (IH _ _ H Hx) as [I|[I|(code & I & J & K)]]; [|auto|right; right; exists code; cbn; auto].
      destruct o as [code|b i|v|]; cbn [use_operand] in E.
      + assert (l2 = append_new l0 (match capstone_reg code with Some r => r | None => STORAGE_COUNT + code end)) as -> by congruence.
        apply append_new_in in I. destruct I as [I|I]; [auto|]. right. pose proof (capstone_reg_spec code) as S. destruct (capstone_reg code) as [r|].
        * left. destruct S as [[_ ->]|S]; [lia|unfold arm_number in S; lia].
        * right. exists code. cbn. tauto.
      + unfold capstone_reg_r in E. pose proof (capstone_reg_spec b) as Sb. destruct (capstone_reg b) as [rb|]; cbn [bind] in E; [|discriminate].
        pose proof (capstone_reg_spec i) as Si. destruct (capstone_reg i) as [ri|]; cbn [bind] in E; [|discriminate].
        unfold arm_number in *. assert (E2 : l2 = if ri =? 0 then if rb =? 0 then l0 else append_new l0 rb else append_new (if rb =? 0 then l0 else append_new l0 rb) ri) by congruence. subst l2.
        destruct (ri =? 0), (rb =? 0); rewrite ?append_new_in in I; intuition lia.
      + assert (l2 = l0) as -> by congruence. auto.
      + assert (l2 = l0) as -> by congruence. auto. }
  intros Hx. destruct (G _ _ _ E Hx) as [I|I]; [|exact I]. destruct (is_push_pop c); [destruct I as [<-|[]]|contradiction]. left. unfold SP; lia. Qed.

(** *** Caches *)
Definition fresh (q : queries) (c : call) : result (list Z) := fst (do_call q no_caches c).
Definition coherent (q : queries) (k : caches) : Prop :=
  (k_used k <> [] -> fresh q CUsed = Ok (k_used k)) /\ (k_written k <> [] -> fresh q CWritten = Ok (k_written k)) /\
  (k_read k <> [] -> fresh q CRead = Ok (k_read k)).
Definition branch_total (q : queries) : Prop := forall l, q_written q = Ok l -> exists b, q_branch q = Ok b.

Lemma do_call_coherent q k c : branch_total q -> coherent q k -> fst (do_call q k c) = fresh q c /\ coherent q (snd (do_call q k c)).
Proof. intros B (U & W & R). destruct k as [ku kw kr]. cbn [k_used k_written k_read] in *. destruct c; cbn [do_call].
  - unfold fresh, storages_used at 1 2. cbn [do_call k_used k_written k_read no_caches]. destruct ku as [|x ku].
    + unfold storages_used. cbn [k_used no_caches k_written k_read]. destruct (q_used q) as [l|e] eqn:E; cbn [fst snd].
      * split; [reflexivity|]. split; [|split; assumption]. cbn [k_used]. intros _. unfold fresh, do_call, storages_used. cbn [k_used no_caches]. rewrite E. reflexivity.
      * split; [reflexivity|]. split; [exact U|split; assumption].
    + cbn [fst snd]. split; [|split; [exact U|split; assumption]]. symmetry. apply U. discriminate.
  - unfold fresh, storages_written at 1 2. cbn [do_call k_used k_written k_read no_caches]. destruct kw as [|x kw].
    + unfold storages_written. cbn [k_used no_caches k_written k_read]. destruct (q_written q) as [l|e] eqn:E; cbn [fst snd].
      * destruct (B l E) as (b & Eb). rewrite Eb.
        destruct (zmem 15 (if q_writes q then l ++ [STORE] else l)) eqn:M; cbn [fst snd].
        all: split; [reflexivity|]; split; [exact U|]; split; [|exact R]; cbn [k_written]; intros _; unfold fresh, do_call, storages_written; cbn [k_written no_caches]; rewrite E, Eb, M; reflexivity.
      * split; [reflexivity|]. split; [exact U|split; assumption].
    + cbn [fst snd]. split; [|split; [exact U|split; assumption]]. symmetry. apply W. discriminate.
  - unfold fresh, storages_read at 1 2. cbn [do_call k_used k_written k_read no_caches]. destruct kr as [|x kr].
    + unfold storages_read. cbn [k_used no_caches k_written k_read]. destruct (q_read q) as [l|e] eqn:E; cbn [fst snd].
      * split; [reflexivity|]. split; [exact U|]. split; [exact W|]. cbn [k_read]. intros _. unfold fresh, do_call, storages_read. cbn [k_read no_caches]. rewrite E. reflexivity.
      * split; [reflexivity|]. split; [exact U|split; assumption].
    + cbn [fst snd]. split; [|split; [exact U|split; assumption]]. symmetry. apply R. discriminate. Qed.

Lemma do_calls_fresh q cs : branch_total q -> forall k, coherent q k -> do_calls q k cs = map (fresh q) cs.
Proof. intros B. induction cs as [|c cs IH]; intros k K; [reflexivity|]. cbn [do_calls map].
  destruct (do_call_coherent q k c B K) as [A C]. destruct (do_call q k c) as [r k']. cbn [fst snd] in *. rewrite A. f_equal. apply IH, C. Qed.

Lemma no_caches_coherent q : coherent q no_caches.
Proof. repeat split; intros H; contradiction H; reflexivity. Qed.

Lemma caps_branch_total c : branch_total (caps_queries c).
Proof. intros l H. cbn in *. unfold is_branch. destruct (c_b c); [eexists; reflexivity|]. rewrite H. eexists; reflexivity. Qed.

(** *** ARM fields *)
Lemma land_field e k n : 0 <= k -> 0 <= n -> Z.land e (Z.shiftl (Z.ones n) k) = field e k n * 2 ^ k.
Proof. intros Hk Hn. unfold field. rewrite <- Z.shiftr_div_pow2, <- Z.land_ones, <- Z.shiftl_mul_pow2 by lia.
  apply Z.bits_inj'. intros i Hi. rewrite Z.land_spec, Z.shiftl_spec by lia.
  destruct (Z.ltb_spec i k).
  - rewrite (Z.testbit_neg_r _ (i - k)), Z.shiftl_spec_low by lia. apply andb_false_r.
  - rewrite Z.shiftl_spec_high, Z.land_spec, Z.shiftr_spec by lia. replace (i - k + k) with i by lia. reflexivity. Qed.

Lemma shiftr_field e k n : 0 <= k -> 0 <= n -> Z.shiftr (Z.land e (Z.shiftl (Z.ones n) k)) k = field e k n.
Proof. intros Hk Hn. rewrite land_field, Z.shiftr_div_pow2, Z.div_mul by lia. reflexivity. Qed.

Lemma arm_type_field e : arm_type e = field e 25 3 * 2 ^ 25.
Proof. unfold arm_type. change 0xE000000 with (Z.shiftl (Z.ones 3) 25). apply land_field; lia. Qed.
Lemma arm_rn_field e : arm_rn e = field e 16 4.
Proof. apply (shiftr_field e 16 4); lia. Qed.
Lemma arm_rd_field e : arm_rd e = field e 12 4.
Proof. apply (shiftr_field e 12 4); lia. Qed.
Lemma arm_rs_field e : arm_rs e = field e 8 4.
Proof. apply (shiftr_field e 8 4); lia. Qed.
Lemma arm_rm_field e : arm_rm e = field e 0 4.
Proof. unfold arm_rm. change 0xF with (Z.shiftl (Z.ones 4) 0). rewrite land_field by lia. lia. Qed.
Lemma field_range e k n : 0 <= k -> 0 <= n -> 0 <= field e k n < 2 ^ n.
Proof. intros. unfold field. apply Z.mod_pos_bound. lia. Qed.

Lemma arm_op_field e : field e 25 3 <= 1 -> arm_op e = field e 21 4 * 2 ^ 21.
Proof. intros H. pose proof (field_range e 25 3 ltac:(lia) ltac:(lia)). unfold arm_op. rewrite arm_type_field. unfold T_BRANCH, T_SWI.
  replace (field e 25 3 * 2 ^ 25 =? 167772160) with false by lia. replace (field e 25 3 * 2 ^ 25 =? 251658240) with false by lia. cbn [orb].
  change (bset 24 21) with (Z.shiftl (Z.ones 4) 21). apply land_field; lia. Qed.

Definition op_two (op : Z) : Prop := 0 <= op <= 6 \/ op = 12 \/ op = 14.
Lemma two_registers_spec op : 0 <= op < 16 -> (two_registers (op * 2 ^ 21) = true <-> op_two op).
Proof. intros H. unfold two_registers, op_two. rewrite !Z.shiftl_mul_pow2 by lia. lia. Qed.

Lemma register_list_range e x : In x (register_list e) -> 0 <= x <= 15.
Proof. unfold register_list. rewrite filter_In, in_zrange. lia. Qed.

Lemma arm_used_range e x : In x (arm_used e) -> 0 <= x <= 15.
Proof. unfold arm_used. rewrite arm_rn_field, arm_rd_field, arm_rs_field, arm_rm_field.
  pose proof (field_range e 16 4 ltac:(lia) ltac:(lia)). pose proof (field_range e 12 4 ltac:(lia) ltac:(lia)).
  pose proof (field_range e 8 4 ltac:(lia) ltac:(lia)). pose proof (field_range e 0 4 ltac:(lia) ltac:(lia)).
  change (2 ^ 4) with 16 in *.
  repeat match goal with |- context [if ?b then _ else _] => destruct b end; cbn [app In]; intros Hx;
  repeat (destruct Hx as [<-|Hx]; [lia|]); try contradiction; try (apply register_list_range in Hx; lia). Qed.

Lemma remove_first_ok x l : In x l -> exists l', remove_first x l = Ok l' /\ (forall y, In y l' -> In y l).
Proof. induction l as [|y l IH]; intros H; [contradiction|]. cbn [remove_first]. destruct (Z.eqb_spec y x) as [->|N].
  - exists l. split; [reflexivity|]. intros; right; assumption.
  - destruct H as [->|H]; [contradiction|]. destruct (IH H) as (l' & -> & I). exists (y :: l'). split; [reflexivity|]. intros z [<-|Hz]; [left; reflexivity|right; auto]. Qed.
Lemma remove_first_err x l : ~ In x l -> remove_first x l = Err ValueError.
Proof. induction l as [|y l IH]; intros H; [reflexivity|]. cbn [remove_first]. destruct (Z.eqb_spec y x) as [->|N]; [exfalso; apply H; left; reflexivity|].
  rewrite IH; [reflexivity|]. intros I. apply H; right; exact I. Qed.
