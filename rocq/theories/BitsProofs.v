From Verif Require Import BitsModel BitsSpec.
From Coq Require Import ZifyBool.

Ltac zb := rewrite ?Z.ltb_lt, ?Z.ltb_ge, ?Z.leb_le, ?Z.leb_gt, ?Z.eqb_eq, ?Z.eqb_neq in *.

Lemma Ok_inj {A} (a b : A) : Ok a = Ok b -> a = b.
Proof. congruence. Qed.

Lemma check_range_ok lo hi : 0 <= lo <= hi -> hi < 32 -> check_range lo hi = Ok tt.
Proof. unfold check_range; intros. destruct (lo >? hi) eqn:E; [lia|].
  destruct ((lo <? 0) || (hi >=? 32)) eqn:E2; [lia|]; reflexivity. Qed.

Lemma check_range_err lo hi : ~ (0 <= lo <= hi /\ hi < 32) -> check_range lo hi = Err RuntimeError.
Proof. unfold check_range; intros. destruct (lo >? hi) eqn:E; [reflexivity|].
  destruct ((lo <? 0) || (hi >=? 32)) eqn:E2; [reflexivity|lia]. Qed.

Lemma testbit_ones n i : 0 <= n -> 0 <= i -> Z.testbit (2 ^ n - 1) i = (i <? n).
Proof. intros. replace (2 ^ n - 1) with (Z.ones n) by (rewrite Z.ones_equiv; lia).
  apply Z.testbit_ones_nonneg; lia. Qed.

Definition set_val (hi lo : Z) : Z := Z.lxor (2 ^ (hi + 1) - 1) (2 ^ lo - 1).

Lemma set_val_bit hi lo i : 0 <= lo <= hi -> 0 <= i ->
  Z.testbit (set_val hi lo) i = (lo <=? i) && (i <=? hi).
Proof. intros. unfold set_val. rewrite Z.lxor_spec, !testbit_ones by lia.
  destruct (i <? hi + 1) eqn:A, (i <? lo) eqn:B, (lo <=? i) eqn:C, (i <=? hi) eqn:D; simpl; lia || reflexivity. Qed.

Lemma bits_set_ok hi lo : 0 <= lo <= hi -> hi < 32 -> bits_set hi lo = Ok (set_val hi lo).
Proof. intros. unfold bits_set. rewrite check_range_ok by lia. reflexivity. Qed.

Lemma bits_set_err hi lo : ~ (0 <= lo <= hi /\ hi < 32) -> bits_set hi lo = Err RuntimeError.
Proof. intros. unfold bits_set. rewrite check_range_err by lia. reflexivity. Qed.

Lemma set_val_nonneg hi lo : 0 <= lo <= hi -> 0 <= set_val hi lo.
Proof. intros. unfold set_val. apply Z.lxor_nonneg.
  assert (0 < 2 ^ (hi+1)) by (apply Z.pow_pos_nonneg; lia).
  assert (0 < 2 ^ lo) by (apply Z.pow_pos_nonneg; lia). lia. Qed.

Lemma bits_set_spec hi lo :
  (0 <= lo <= hi /\ hi < 32 ->
   exists m, bits_set hi lo = Ok m /\
             forall i, 0 <= i -> Z.testbit m i = true <-> lo <= i <= hi) /\
  (~ (0 <= lo <= hi /\ hi < 32) -> bits_set hi lo = Err RuntimeError).
Proof. split; intros H.
  - exists (set_val hi lo). split; [apply bits_set_ok; lia|].
    intros i Hi. rewrite set_val_bit by lia. lia.
  - apply bits_set_err; exact H. Qed.

(** The value computed by copy_bits inside the valid ranges. *)
Definition copy_val (src dst f t d : Z) : Z :=
  let mask := set_val (d + (t - f)) d in
  Z.lor (Z.land dst (Z.lnot mask))
        (Z.land mask (if f >? d then Z.shiftr src (f - d) else Z.shiftl src (d - f))).

Lemma copy_bits_ok src dst f t d :
  0 <= f <= t -> t < 32 -> 0 <= d -> d + (t - f) < 32 ->
  copy_bits src dst f t d = Ok (copy_val src dst f t d).
Proof. intros. unfold copy_bits. rewrite !check_range_ok by lia. cbn [bind].
  rewrite bits_set_ok by lia. cbn [bind]. unfold copy_val. destruct (f >? d); reflexivity. Qed.

Lemma copy_bits_err src dst f t d :
  ~ ((0 <= f <= t /\ t < 32) /\ (0 <= d /\ d + (t - f) < 32)) ->
  copy_bits src dst f t d = Err RuntimeError.
Proof. intros. unfold copy_bits.
  destruct (Z_le_dec 0 f), (Z_le_dec f t), (Z_lt_dec t 32);
    try (rewrite check_range_err by lia; reflexivity).
  rewrite check_range_ok by lia. cbn [bind]. rewrite check_range_err by lia. reflexivity. Qed.

Lemma copy_val_bit src dst f t d i :
  0 <= f <= t -> 0 <= d -> 0 <= i ->
  Z.testbit (copy_val src dst f t d) i =
  if (d <=? i) && (i <=? d + (t - f)) then Z.testbit src (i - d + f) else Z.testbit dst i.
Proof. intros. unfold copy_val.
  rewrite Z.lor_spec, !Z.land_spec, Z.lnot_spec, set_val_bit by lia.
  destruct ((d <=? i) && (i <=? d + (t - f))) eqn:E.
  - rewrite andb_false_r; simpl. destruct (f >? d) eqn:F.
    + rewrite Z.shiftr_spec by lia. f_equal; lia.
    + rewrite Z.shiftl_spec by lia. f_equal; lia.
  - rewrite andb_true_r, andb_false_l, orb_false_r. reflexivity. Qed.

Lemma copy_bits_spec src dst f t d :
  (0 <= f <= t /\ t < 32 -> 0 <= d /\ d + (t - f) < 32 ->
   exists r, copy_bits src dst f t d = Ok r /\
     forall i, 0 <= i ->
       (d <= i <= d + (t - f) -> Z.testbit r i = Z.testbit src (f + (i - d))) /\
       (~ (d <= i <= d + (t - f)) -> Z.testbit r i = Z.testbit dst i)) /\
  (~ ((0 <= f <= t /\ t < 32) /\ (0 <= d /\ d + (t - f) < 32)) ->
   copy_bits src dst f t d = Err RuntimeError).
Proof. split.
  - intros H1 H2. exists (copy_val src dst f t d). split; [apply copy_bits_ok; lia|].
    intros i Hi. rewrite copy_val_bit by lia. split; intros H;
      destruct ((d <=? i) && (i <=? d + (t - f))) eqn:E; try lia; f_equal; lia.
  - apply copy_bits_err. Qed.

Lemma testbit_nz v : v <> 0 -> exists i, 0 <= i /\ Z.testbit v i = true.
Proof. intros H. destruct (Z.lt_ge_cases v 0) as [L|L].
  - (* negative: high bits are ones *)
    pose proof (Z.log2_nonneg (Z.lnot v)). remember (Z.lnot v) as u eqn:Eu.
    assert (Ev : v = Z.lnot u) by (subst u; rewrite Z.lnot_involutive; reflexivity).
    exists (Z.log2 u + 1). split; [lia|]. rewrite Ev, Z.lnot_spec by lia.
    rewrite Z.bits_above_log2; [reflexivity|unfold Z.lnot in Eu; lia|lia].
  - exists (Z.log2 v). split; [apply Z.log2_nonneg|]. apply Z.bit_log2. lia. Qed.

Lemma land_nz a b : negb (Z.land a b =? 0) = true <->
  exists i, 0 <= i /\ Z.testbit a i = true /\ Z.testbit b i = true.
Proof. rewrite negb_true_iff, Z.eqb_neq. split.
  - intros H. destruct (testbit_nz _ H) as (i & Hi & E). rewrite Z.land_spec in E.
    apply andb_prop in E. exists i; tauto.
  - intros (i & Hi & A & B) E. assert (Z.testbit (Z.land a b) i = true) by (rewrite Z.land_spec, A, B; reflexivity).
    rewrite E, Z.bits_0 in H. discriminate. Qed.

Lemma is_on_testbit v b : 0 <= b -> is_on v b = Ok (Z.testbit v b).
Proof. intros H. unfold is_on. destruct (b <? 0) eqn:E; [lia|]. f_equal.
  apply eq_true_iff_eq. rewrite land_nz. split.
  - intros (i & Hi & A & B). destruct (Z.eq_dec i b) as [->|N]; [exact A|].
    rewrite Z.pow2_bits_false in B by lia. discriminate.
  - intros A. exists b. repeat split; [lia|exact A|]. apply Z.pow2_bits_true; lia. Qed.

Lemma is_on_spec v b :
  (0 <= b -> exists r, is_on v b = Ok r /\ (r = true <-> Z.testbit v b = true)) /\
  (b < 0 -> is_on v b = Err TypeError).
Proof. split; intros H.
  - exists (Z.testbit v b). split; [apply is_on_testbit; lia|tauto].
  - unfold is_on. destruct (b <? 0) eqn:E; [reflexivity|lia]. Qed.

Lemma are_on_spec v hi lo :
  (0 <= lo <= hi /\ hi < 32 ->
   exists r, are_on v hi lo = Ok r /\
     (r = true <-> exists i, lo <= i <= hi /\ Z.testbit v i = true)) /\
  (~ (0 <= lo <= hi /\ hi < 32) -> are_on v hi lo = Err RuntimeError).
Proof. unfold are_on; split; intros H.
  - rewrite bits_set_ok by lia. cbn [bind]. eexists; split; [reflexivity|].
    rewrite land_nz. split.
    + intros (i & Hi & A & B). rewrite set_val_bit in B by lia. exists i; split; [lia|exact A].
    + intros (i & Hi & A). exists i. rewrite set_val_bit by lia. repeat split; [lia|exact A|lia].
  - rewrite bits_set_err by lia. reflexivity. Qed.

Lemma bits_on_spec b i : 0 <= b -> 0 <= i -> (Z.testbit (bits_on b) i = true <-> i = b).
Proof. intros. unfold bits_on. rewrite Z.pow2_bits_eqb by lia. lia. Qed.

(** ** Field setters *)


Lemma field_bit e pos w i : 0 <= pos -> 0 <= w -> 0 <= i ->
  Z.testbit (field e pos w) i = (i <? w) && Z.testbit e (pos + i).
Proof. intros. unfold field. rewrite <- Z.shiftr_div_pow2 by lia.
  rewrite <- Z.land_ones by lia. rewrite Z.land_spec, Z.testbit_ones_nonneg by lia.
  rewrite Z.shiftr_spec by lia. rewrite andb_comm. f_equal. f_equal; lia. Qed.

Lemma nonneg_bits_eq a b : (forall i, 0 <= i -> Z.testbit a i = Z.testbit b i) -> a = b.
Proof. intros H. apply Z.bits_inj'. exact H. Qed.

Lemma bits_bound v n : 0 <= n -> (0 <= v < 2 ^ n <-> forall i, n <= i -> Z.testbit v i = false).
Proof. intros Hn. split.
  - intros [Hv Hb] i Hi. destruct (Z.eq_dec v 0) as [->|N]; [apply Z.bits_0|].
    apply Z.bits_above_log2; [lia|]. assert (Z.log2 v < n) by (apply Z.log2_lt_pow2; lia). lia.
  - intros H. assert (E : v = Z.land v (Z.ones n)).
    { apply nonneg_bits_eq; intros i Hi. rewrite Z.land_spec, Z.testbit_ones_nonneg by lia.
      destruct (i <? n) eqn:L; [rewrite andb_true_r; reflexivity|]. rewrite H by lia. reflexivity. }
    rewrite Z.land_ones in E by lia. rewrite E. apply Z.mod_pos_bound. apply Z.pow_pos_nonneg; lia. Qed.


Lemma copy_sets_field e v pos w : 0 <= pos -> 0 < w -> pos + w <= 32 ->
  exists e', copy_bits v e 0 (w - 1) pos = Ok e' /\
    field e' pos w = v mod 2 ^ w /\
    (forall i, 0 <= i -> ~ (pos <= i < pos + w) -> Z.testbit e' i = Z.testbit e i) /\
    (0 <= e < 2 ^ 32 -> 0 <= e' < 2 ^ 32).
Proof. intros Hp Hw Hs. rewrite copy_bits_ok by lia. eexists; split; [reflexivity|]. split; [|split].
  - apply nonneg_bits_eq; intros i Hi. rewrite field_bit by lia.
    rewrite <- Z.land_ones by lia. rewrite Z.land_spec, Z.testbit_ones_nonneg by lia.
    rewrite copy_val_bit by lia. destruct (i <? w) eqn:L; cbn [andb]; [|rewrite andb_false_r; reflexivity].
    rewrite andb_true_r. destruct ((pos <=? pos + i) && (pos + i <=? pos + (w - 1 - 0))) eqn:E; [|lia].
    f_equal; lia.
  - intros i Hi Ho. rewrite copy_val_bit by lia.
    destruct ((pos <=? i) && (i <=? pos + (w - 1 - 0))) eqn:E; [lia|reflexivity].
  - intros He. apply bits_bound; [lia|]. intros i Hi. rewrite copy_val_bit by lia.
    destruct ((pos <=? i) && (i <=? pos + (w - 1 - 0))) eqn:E; [lia|].
    apply (proj1 (bits_bound e 32 ltac:(lia)) He); lia. Qed.

Lemma modify_cond_field : sets_field modify_cond 28 4.
Proof. intros e v. apply (copy_sets_field e v 28 4); lia. Qed.
Lemma modify_opcode_field : sets_field modify_opcode 21 4.
Proof. intros e v. apply (copy_sets_field e v 21 4); lia. Qed.
Lemma modify_rn_field : sets_field modify_rn 16 4.
Proof. intros e v. apply (copy_sets_field e v 16 4); lia. Qed.
Lemma modify_rd_field : sets_field modify_rd 12 4.
Proof. intros e v. apply (copy_sets_field e v 12 4); lia. Qed.
Lemma modify_rs_field : sets_field modify_rs 8 4.
Proof. intros e v. apply (copy_sets_field e v 8 4); lia. Qed.
Lemma modify_rm_field : sets_field modify_rm 0 4.
Proof. intros e v. apply (copy_sets_field e v 0 4); lia. Qed.

(** The immediate width depends on bits 25..27 of the encoding. *)
Lemma imm_class e : (Z.land e 0xE000000 =? 0x4000000) = true <-> field e 25 3 = 2.
Proof. rewrite Z.eqb_eq. 
  assert (B : forall i, 0 <= i -> Z.testbit 0xE000000 i = (25 <=? i) && (i <? 28)).
  { intros i Hi. change 0xE000000 with (set_val 27 25). rewrite set_val_bit by lia. lia. }
  split; intros H.
  - apply nonneg_bits_eq; intros i Hi. rewrite field_bit by lia.
    assert (E : Z.testbit (Z.land e 0xE000000) (25 + i) = Z.testbit 0x4000000 (25 + i)) by (rewrite H; reflexivity).
    rewrite Z.land_spec, B in E by lia. change 0x4000000 with (2 ^ 26) in E. change 2 with (2 ^ 1).
    rewrite Z.pow2_bits_eqb in * by lia.
    destruct (i <? 3) eqn:L; cbn [andb].
    + replace ((25 <=? 25 + i) && (25 + i <? 28)) with true in E by lia. rewrite andb_true_r in E. rewrite E. lia.
    + lia.
  - apply nonneg_bits_eq; intros i Hi. rewrite Z.land_spec, B by lia. change 0x4000000 with (2 ^ 26).
    rewrite Z.pow2_bits_eqb by lia. destruct ((25 <=? i) && (i <? 28)) eqn:L; [|lia].
    rewrite andb_true_r. assert (E : Z.testbit (field e 25 3) (i - 25) = Z.testbit (2 ^ 1) (i - 25)) by (rewrite H; reflexivity).
    rewrite field_bit, Z.pow2_bits_eqb in E by lia. replace (i - 25 <? 3) with true in E by lia. cbn [andb] in E.
    replace (25 + (i - 25)) with i in E by lia. rewrite E. lia. Qed.

Lemma modify_immediate_field e v :
  exists e', modify_immediate e v = Ok e' /\
    let w := if field e 25 3 =? 2 then 12 else 8 in
    field e' 0 w = v mod 2 ^ w /\
    (forall i, 0 <= i -> ~ (0 <= i < w) -> Z.testbit e' i = Z.testbit e i) /\
    (0 <= e < 2 ^ 32 -> 0 <= e' < 2 ^ 32).
Proof. unfold modify_immediate. destruct (Z.land e 0xE000000 =? 0x4000000) eqn:E.
  - apply imm_class in E. rewrite E. cbn [Z.eqb Pos.eqb].
    apply (copy_sets_field e v 0 12); lia.
  - destruct (field e 25 3 =? 2) eqn:F.
    + apply Z.eqb_eq in F. apply imm_class in F. congruence.
    + apply (copy_sets_field e v 0 8); lia. Qed.

Lemma setters_commute s1 s2 p1 p2 :
  sets_field s1 p1 4 -> sets_field s2 p2 4 -> 0 <= p1 -> 0 <= p2 ->
  p1 + 4 <= p2 \/ p2 + 4 <= p1 ->
  forall e v1 v2, (let* e1 := s1 e v1 in s2 e1 v2) = (let* e2 := s2 e v2 in s1 e2 v1).
Proof. intros H1 H2 Hp1 Hp2 Hd e v1 v2.
  destruct (H1 e v1) as (a & -> & Fa & Oa & _). destruct (H2 e v2) as (b & -> & Fb & Ob & _). cbn [bind].
  destruct (H2 a v2) as (c & -> & Fc & Oc & _). destruct (H1 b v1) as (d & -> & Fd & Od & _). f_equal.
  apply nonneg_bits_eq; intros i Hi.
  assert (G : forall x y p, field x p 4 = field y p 4 -> 0 <= p -> p <= i < p + 4 -> Z.testbit x i = Z.testbit y i).
  { intros x y p E Hp Hr. assert (Q : Z.testbit (field x p 4) (i - p) = Z.testbit (field y p 4) (i - p)) by (rewrite E; reflexivity).
    rewrite !field_bit in Q by lia. replace (i - p <? 4) with true in Q by lia. cbn [andb] in Q.
    replace (p + (i - p)) with i in Q by lia. exact Q. }
  destruct (Z_le_dec p1 i), (Z_lt_dec i (p1 + 4)).
  - rewrite Oc by lia. apply (G a d p1); [congruence|lia|lia].
  - destruct (Z_le_dec p2 i), (Z_lt_dec i (p2 + 4)).
    + rewrite Od by lia. apply (G c b p2); [congruence|lia|lia].
    + rewrite Oc, Oa, Od, Ob by lia; reflexivity.
    + rewrite Oc, Oa, Od, Ob by lia; reflexivity.
    + rewrite Oc, Oa, Od, Ob by lia; reflexivity.
  - destruct (Z_le_dec p2 i), (Z_lt_dec i (p2 + 4)).
    + rewrite Od by lia. apply (G c b p2); [congruence|lia|lia].
    + rewrite Oc, Oa, Od, Ob by lia; reflexivity.
    + rewrite Oc, Oa, Od, Ob by lia; reflexivity.
    + rewrite Oc, Oa, Od, Ob by lia; reflexivity.
  - lia. Qed.

(** Reading the register fields with the code's own getters. *)
Lemma masked_field e hi lo : 0 <= lo <= hi ->
  Z.shiftr (Z.land e (set_val hi lo)) lo = field e lo (hi - lo + 1).
Proof. intros H. apply nonneg_bits_eq; intros i Hi.
  rewrite Z.shiftr_spec, Z.land_spec, set_val_bit, field_bit by lia.
  rewrite andb_comm. f_equal; [lia|]. f_equal; lia. Qed.

Lemma rn_field_spec e : rn_field e = Ok (field e 16 4).
Proof. unfold rn_field. rewrite bits_set_ok by lia. cbn [bind]. rewrite masked_field by lia. reflexivity. Qed.
Lemma rd_field_spec e : rd_field e = Ok (field e 12 4).
Proof. unfold rd_field. rewrite bits_set_ok by lia. cbn [bind]. rewrite masked_field by lia. reflexivity. Qed.
Lemma rs_field_spec e : rs_field e = Ok (field e 8 4).
Proof. unfold rs_field. rewrite bits_set_ok by lia. cbn [bind]. rewrite masked_field by lia. reflexivity. Qed.
Lemma rm_field_spec e : rm_field e = Ok (field e 0 4).
Proof. unfold rm_field. f_equal. change 0xF with (set_val 3 0). rewrite <- (Z.shiftr_0_r (Z.land _ _)).
  rewrite masked_field by lia. reflexivity. Qed.

Lemma field_range e p w : 0 <= w -> 0 <= field e p w < 2 ^ w.
Proof. intros. unfold field. apply Z.mod_pos_bound. apply Z.pow_pos_nonneg; lia. Qed.

Lemma read_back_registers e v : 0 <= v < 16 ->
  (let* e' := modify_rn e v in rn_field e') = Ok v /\
  (let* e' := modify_rd e v in rd_field e') = Ok v /\
  (let* e' := modify_rs e v in rs_field e') = Ok v /\
  (let* e' := modify_rm e v in rm_field e') = Ok v.
Proof. intros H. assert (M : v mod 2 ^ 4 = v) by (apply Z.mod_small; change (2 ^ 4) with 16; lia).
  repeat split.
  - destruct (modify_rn_field e v) as (a & -> & F & _). cbn [bind]. rewrite rn_field_spec, F, M. reflexivity.
  - destruct (modify_rd_field e v) as (a & -> & F & _). cbn [bind]. rewrite rd_field_spec, F, M. reflexivity.
  - destruct (modify_rs_field e v) as (a & -> & F & _). cbn [bind]. rewrite rs_field_spec, F, M. reflexivity.
  - destruct (modify_rm_field e v) as (a & -> & F & _). cbn [bind]. rewrite rm_field_spec, F, M. reflexivity. Qed.

(** ** Endianness *)


Ltac Zify.zify_post_hook ::= Z.div_mod_to_equations.

Lemma byte_of_sum b0 b1 b2 b3 v :
  0 <= b0 < 256 -> 0 <= b1 < 256 -> 0 <= b2 < 256 -> 0 <= b3 < 256 ->
  v = b0 + 2 ^ 8 * b1 + 2 ^ 16 * b2 + 2 ^ 24 * b3 ->
  byte v 0 = b0 /\ byte v 1 = b1 /\ byte v 2 = b2 /\ byte v 3 = b3 /\ 0 <= v < 2 ^ 32.
Proof. intros H0 H1 H2 H3 Hv. unfold byte.
  change (2 ^ (8 * 0)) with 1. change (2 ^ (8 * 1)) with 256. change (2 ^ (8 * 2)) with 65536.
  change (2 ^ (8 * 3)) with 16777216. change (2 ^ 32) with 4294967296.
  change (2 ^ 24) with 16777216 in Hv. change (2 ^ 16) with 65536 in Hv. change (2 ^ 8) with 256 in Hv.
  repeat split; lia. Qed.

Lemma reverse_int_spec v :
  (0 <= v < 2 ^ 32 ->
   exists r, reverse_endianess_int v = Ok r /\ 0 <= r < 2 ^ 32 /\
     forall k, 0 <= k <= 3 -> byte r k = byte v (3 - k)) /\
  (~ (0 <= v < 2 ^ 32) -> reverse_endianess_int v = Err StructError).
Proof. unfold reverse_endianess_int, pack_be32. split; intros H.
  - destruct ((0 <=? v) && (v <? 2 ^ 32)) eqn:E; [|lia]. cbn [bind unpack_le32].
    eexists; split; [reflexivity|].
    destruct (byte_of_sum ((v / 2 ^ 24) mod 256) ((v / 2 ^ 16) mod 256) ((v / 2 ^ 8) mod 256) (v mod 256) _
      (Z.mod_pos_bound _ 256 eq_refl) (Z.mod_pos_bound _ 256 eq_refl) (Z.mod_pos_bound _ 256 eq_refl)
      (Z.mod_pos_bound _ 256 eq_refl) eq_refl) as (A0 & A1 & A2 & A3 & A).
    split; [exact A|]. intros k Hk.
    assert (K : k = 0 \/ k = 1 \/ k = 2 \/ k = 3) by lia.
    destruct K as [-> | [-> | [-> | ->]]].
    + rewrite A0. reflexivity.
    + rewrite A1. reflexivity.
    + rewrite A2. reflexivity.
    + rewrite A3. unfold byte. change (2 ^ (8 * (3 - 3))) with 1. rewrite Z.div_1_r. reflexivity.
  - destruct ((0 <=? v) && (v <? 2 ^ 32)) eqn:E; [lia|reflexivity]. Qed.

Lemma bytes_determine a b : 0 <= a < 2 ^ 32 -> 0 <= b < 2 ^ 32 ->
  (forall k, 0 <= k <= 3 -> byte a k = byte b k) -> a = b.
Proof. intros Ha Hb H. pose proof (H 0 ltac:(lia)) as H0. pose proof (H 1 ltac:(lia)) as H1.
  pose proof (H 2 ltac:(lia)) as H2. pose proof (H 3 ltac:(lia)) as H3. clear H. unfold byte in *.
  change (2 ^ (8 * 0)) with 1 in *. change (2 ^ (8 * 1)) with 256 in *. change (2 ^ (8 * 2)) with 65536 in *.
  change (2 ^ (8 * 3)) with 16777216 in *. change (2 ^ 32) with 4294967296 in *. lia. Qed.

Lemma reverse_int_involutive v : 0 <= v < 2 ^ 32 ->
  (let* r := reverse_endianess_int v in reverse_endianess_int r) = Ok v.
Proof. intros H. destruct (proj1 (reverse_int_spec v) H) as (r & -> & Hr & B). cbn [bind].
  destruct (proj1 (reverse_int_spec r) Hr) as (s & -> & Hs & B2). f_equal.
  apply bytes_determine; [assumption..|]. intros k Hk. rewrite B2, B by lia. f_equal; lia. Qed.

(** Text form. *)
Definition is_hex (c : Z) : Prop := hex_digit c <> None.

Lemma hex_not_space c d : hex_digit c = Some d -> is_space c = false /\ 0 <= d < 16.
Proof. unfold hex_digit, is_space.
  destruct ((48 <=? c) && (c <=? 57)) eqn:A; [intros E; injection E as <-; lia|].
  destruct ((97 <=? c) && (c <=? 102)) eqn:B; [intros E; injection E as <-; lia|].
  destruct ((65 <=? c) && (c <=? 70)) eqn:C; [intros E; injection E as <-; lia|discriminate]. Qed.

Lemma strip_hex s : Forall is_hex s -> strip_spaces s = s.
Proof. unfold strip_spaces. induction 1 as [|c s Hc Hs IH]; [reflexivity|]. cbn [filter].
  destruct (hex_digit c) eqn:E; [|contradiction]. apply hex_not_space in E. destruct E as [-> _]. cbn [negb]. rewrite IH; reflexivity. Qed.

Lemma parse_from_cons acc c d s :
  hex_digit c = Some d -> parse_hex_from acc (c :: s) = parse_hex_from (16 * acc + d) s.
Proof. intros H. cbn [parse_hex_from]. rewrite H. reflexivity. Qed.

Lemma parse8 c0 c1 c2 c3 c4 c5 c6 c7 d0 d1 d2 d3 d4 d5 d6 d7 :
  hex_digit c0 = Some d0 -> hex_digit c1 = Some d1 -> hex_digit c2 = Some d2 -> hex_digit c3 = Some d3 ->
  hex_digit c4 = Some d4 -> hex_digit c5 = Some d5 -> hex_digit c6 = Some d6 -> hex_digit c7 = Some d7 ->
  parse_hex_from 0 [c0; c1; c2; c3; c4; c5; c6; c7] =
  Ok ((16 * d6 + d7) + 2 ^ 8 * (16 * d4 + d5) + 2 ^ 16 * (16 * d2 + d3) + 2 ^ 24 * (16 * d0 + d1)).
Proof. intros. do 8 (erewrite parse_from_cons by eassumption).
  set (x := 16 * 0 + d0). assert (Hx : x = d0) by (subst x; lia). clearbody x. subst x.
  cbv beta iota delta [parse_hex_from]. f_equal.
  change (2 ^ 24) with 16777216. change (2 ^ 16) with 65536. change (2 ^ 8) with 256. ring. Qed.

Lemma parse_from_some acc c s v :
  parse_hex_from acc (c :: s) = Ok v -> exists d, hex_digit c = Some d /\ parse_hex_from (16 * acc + d) s = Ok v.
Proof. cbn [parse_hex_from]. destruct (hex_digit c) as [d|]; [|discriminate]. intros H. exists d. auto. Qed.

Lemma reverse_str_spec s v :
  length (strip_spaces s) = 8%nat -> parse_hex s = Ok v ->
  length (reverse_endianess_str s) = 8%nat /\
  (let* r := reverse_endianess_int v in Ok r) = parse_hex (reverse_endianess_str s) /\
  0 <= v < 2 ^ 32.
Proof. unfold parse_hex, reverse_endianess_str.
  remember (strip_spaces s) as a eqn:Ea. clear Ea s.
  intros L. destruct a as [|c0 [|c1 [|c2 [|c3 [|c4 [|c5 [|c6 [|c7 [|]]]]]]]]]; try discriminate. clear L.
  unfold slice. cbn [firstn skipn app Nat.sub length].
  intros H. pose proof H as H'.
  apply parse_from_some in H'; destruct H' as (d0 & D0 & H').
  apply parse_from_some in H'; destruct H' as (d1 & D1 & H').
  apply parse_from_some in H'; destruct H' as (d2 & D2 & H').
  apply parse_from_some in H'; destruct H' as (d3 & D3 & H').
  apply parse_from_some in H'; destruct H' as (d4 & D4 & H').
  apply parse_from_some in H'; destruct H' as (d5 & D5 & H').
  apply parse_from_some in H'; destruct H' as (d6 & D6 & H').
  apply parse_from_some in H'; destruct H' as (d7 & D7 & _).
  rewrite (parse8 _ _ _ _ _ _ _ _ _ _ _ _ _ _ _ _ D0 D1 D2 D3 D4 D5 D6 D7) in H. apply Ok_inj in H.
  rewrite strip_hex by (repeat constructor; unfold is_hex; congruence).
  rewrite (parse8 _ _ _ _ _ _ _ _ _ _ _ _ _ _ _ _ D6 D7 D4 D5 D2 D3 D0 D1).
  apply hex_not_space in D0, D1, D2, D3, D4, D5, D6, D7.
  destruct (byte_of_sum (16 * d6 + d7) (16 * d4 + d5) (16 * d2 + d3) (16 * d0 + d1) v) as (A0 & A1 & A2 & A3 & A); try lia.
  destruct (byte_of_sum (16 * d0 + d1) (16 * d2 + d3) (16 * d4 + d5) (16 * d6 + d7) _ ltac:(lia) ltac:(lia) ltac:(lia) ltac:(lia) eq_refl) as (B0 & B1 & B2 & B3 & B).
  split; [reflexivity|]. split; [|exact A].
  destruct (proj1 (reverse_int_spec v) A) as (r & -> & R & C). cbn [bind]. f_equal.
  apply bytes_determine; [exact R|exact B|].
  intros k Hk. rewrite C by lia.
  assert (K : k = 0 \/ k = 1 \/ k = 2 \/ k = 3) by lia.
  destruct K as [-> | [-> | [-> | ->]]]; cbn [Z.sub Z.add Z.opp Z.pos_sub Z.succ_double Z.pred_double].
  - rewrite B0. exact A3.
  - rewrite B1. exact A2.
  - rewrite B2. exact A1.
  - rewrite B3. exact A0. Qed.

(** ** Branch targets *)

Lemma land_set_mod e : Z.land e (set_val 23 0) = e mod 2 ^ 24.
Proof. change (set_val 23 0) with (Z.ones 24). apply Z.land_ones; lia. Qed.

Lemma land_ffffffff e : Z.land e 0xffffffff = e mod 2 ^ 32.
Proof. change 0xffffffff with (Z.ones 32). apply Z.land_ones; lia. Qed.

Lemma computed_jump_spec e a :
  computed_jump e a = Ok ((a + 8 + 4 * sext24 (e mod 2 ^ 24)) mod 2 ^ 32).
Proof. unfold computed_jump. rewrite bits_set_ok by lia. cbn [bind]. rewrite land_set_mod.
  rewrite is_on_testbit by lia. cbn [bind].
  pose proof (Z.mod_pos_bound e (2 ^ 24) ltac:(reflexivity)) as Hx. set (x := e mod 2 ^ 24) in *.
  assert (T : Z.testbit x 23 = negb (x <? 2 ^ 23)).
  { rewrite Z.testbit_odd, Z.shiftr_div_pow2 by lia.
    assert (D : x / 2 ^ 23 = 0 /\ x < 2 ^ 23 \/ x / 2 ^ 23 = 1 /\ 2 ^ 23 <= x).
    { change (2 ^ 23) with 8388608 in *. change (2 ^ 24) with 16777216 in *. lia. }
    destruct D as [[-> L]|[-> L]]; cbn [Z.odd]; lia. }
  rewrite T. unfold sext24. destruct (x <? 2 ^ 23) eqn:L; cbn [negb bind].
  - rewrite Z.shiftl_mul_pow2, land_ffffffff by lia. f_equal. f_equal. lia.
  - rewrite bits_set_ok by lia. cbn [bind]. rewrite Z.shiftl_mul_pow2, land_ffffffff by lia.
    assert (E : Z.lor x (set_val 29 24) = x + set_val 29 24).
    { symmetry. 
      assert (D : Z.land x (set_val 29 24) = 0).
      { apply nonneg_bits_eq; intros i Hi. rewrite Z.land_spec, set_val_bit, Z.bits_0 by lia.
        destruct (Z_lt_dec i 24).
        - replace (24 <=? i) with false by lia. apply andb_false_r.
        - rewrite (proj1 (bits_bound x 24 ltac:(lia)) Hx) by lia. reflexivity. }
      rewrite Z.add_nocarry_lxor by exact D. apply Z.lxor_lor in D. exact D. }
    rewrite E. change (set_val 29 24) with (2 ^ 30 - 2 ^ 24). f_equal.
    replace ((x + (2 ^ 30 - 2 ^ 24)) * 2 ^ 2 + (a + 8)) with (a + 8 + 4 * (x - 2 ^ 24) + 1 * 2 ^ 32) by lia.
    rewrite Z.mod_add by lia. reflexivity. Qed.

Lemma jumping_address_spec e a :
  exists t, t = (a + 8 + 4 * sext24 (e mod 2 ^ 24)) mod 2 ^ 32 /\
    jumping_address true e a None = Ok (Some t, Some t) /\
    darm_jumping_address e a None = Ok (Some t, Some t) /\
    (forall cache, jumping_address false e a cache = Ok (None, cache)).
Proof. eexists; split; [reflexivity|]. unfold jumping_address, darm_jumping_address.
  rewrite computed_jump_spec. cbn [bind]. repeat split. Qed.

Lemma jumping_address_stable b e a r c :
  jumping_address b e a None = Ok (r, c) -> jumping_address b e a c = Ok (r, c).
Proof. unfold jumping_address. destruct b.
  - destruct (computed_jump e a); cbn [bind]; [|discriminate]. intros H; injection H as <- <-. reflexivity.
  - intros H; injection H as <- <-. reflexivity. Qed.

