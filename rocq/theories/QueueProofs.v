From Verif Require Import ListLemmas BitsModel BitsSpec BitsProofs QueueModel QueueSpec.
From Coq Require Import ZifyBool ZifyNat Znumtheory.

Lemma pow2_pos n : 0 <= n -> 0 < 2 ^ n.
Proof. intros. apply Z.pow_pos_nonneg; lia. Qed.

(** ** Arithmetic view of bit copies *)
Lemma testbit_split a b t i : 0 <= t -> 0 <= i -> 0 <= a < 2 ^ t ->
  Z.testbit (a + b * 2 ^ t) i = if i <? t then Z.testbit a i else Z.testbit b (i - t).
Proof. intros Ht Hi Ha.
  assert (E : Z.testbit (a + b * 2 ^ t) i = Z.testbit (Z.lor a (Z.shiftl b t)) i).
  { f_equal. rewrite <- Z.shiftl_mul_pow2 by lia.
    assert (D : Z.land a (Z.shiftl b t) = 0).
    { apply nonneg_bits_eq; intros j Hj. rewrite Z.land_spec, Z.shiftl_spec, Z.bits_0 by lia.
      destruct (Z_lt_dec j t).
      - rewrite (Z.testbit_neg_r b) by lia. apply andb_false_r.
      - rewrite (proj1 (bits_bound a t Ht) Ha) by lia. reflexivity. }
    rewrite Z.add_nocarry_lxor by exact D. apply Z.lxor_lor; exact D. }
  rewrite E, Z.lor_spec, Z.shiftl_spec by lia. destruct (i <? t) eqn:L.
  - rewrite (Z.testbit_neg_r b) by lia. apply orb_false_r.
  - rewrite (proj1 (bits_bound a t Ht) Ha) by lia. reflexivity. Qed.

Lemma with_field_parts v t w c : 0 <= t -> 0 <= w ->
  with_field v t w c = v mod 2 ^ t + (c + (v / 2 ^ (t + w)) * 2 ^ w) * 2 ^ t.
Proof. intros. unfold with_field, field. pose proof (pow2_pos t ltac:(lia)). pose proof (pow2_pos w ltac:(lia)).
  pose proof (Z.div_mod v (2 ^ t) ltac:(lia)) as E1.
  pose proof (Z.div_mod (v / 2 ^ t) (2 ^ w) ltac:(lia)) as E2.
  rewrite Z.div_div in E2 by lia. rewrite <- Z.pow_add_r in E2 by lia.
  rewrite E1 at 1. rewrite E2 at 1. ring. Qed.

Lemma with_field_bit v t w c i : 0 <= t -> 0 <= w -> 0 <= c < 2 ^ w -> 0 <= i ->
  Z.testbit (with_field v t w c) i =
  if (t <=? i) && (i <? t + w) then Z.testbit c (i - t) else Z.testbit v i.
Proof. intros Ht Hw Hc Hi. rewrite with_field_parts by lia.
  rewrite testbit_split by (try lia; apply Z.mod_pos_bound; apply pow2_pos; lia).
  destruct (i <? t) eqn:L.
  - replace (t <=? i) with false by lia. cbn [andb]. rewrite Z.mod_pow2_bits_low by lia. reflexivity.
  - replace (t <=? i) with true by lia. cbn [andb]. rewrite testbit_split by lia.
    destruct (i <? t + w) eqn:M; [replace (i - t <? w) with true by lia; reflexivity|].
    replace (i - t <? w) with false by lia. rewrite Z.div_pow2_bits by lia. f_equal; lia. Qed.

Lemma copy_val_with_field src dst f w d : 0 <= f -> 0 < w -> 0 <= d ->
  copy_val src dst f (f + w - 1) d = with_field dst d w (field src f w).
Proof. intros. apply nonneg_bits_eq; intros i Hi.
  rewrite copy_val_bit, with_field_bit by (try lia; apply field_range; lia).
  destruct ((d <=? i) && (i <? d + w)) eqn:E.
  - replace ((d <=? i) && (i <=? d + (f + w - 1 - f))) with true by lia.
    rewrite field_bit by lia. replace (i - d <? w) with true by lia. cbn [andb]. f_equal; lia.
  - replace ((d <=? i) && (i <=? d + (f + w - 1 - f))) with false by lia. reflexivity. Qed.

Lemma with_field_high v t w c : 0 <= t -> 0 <= w -> 0 <= v < 2 ^ t -> with_field v t w c = v + c * 2 ^ t.
Proof. intros. unfold with_field, field. rewrite Z.div_small by lia.
  rewrite Z.mod_0_l by (pose proof (pow2_pos w); lia). ring. Qed.

(** ** List indexing *)
Lemma py_get_last {A} (pre : list A) x : py_get (pre ++ [x]) (Z.of_nat (length pre)) = Ok x.
Proof. unfold py_get. destruct (Z.of_nat (length pre) <? 0) eqn:E; [lia|]. rewrite E.
  unfold nth_r. rewrite Nat2Z.id, nth_error_app2, Nat.sub_diag by lia. reflexivity. Qed.

Lemma list_set_last {A} (pre : list A) x y : list_set (pre ++ [x]) (length pre) y = pre ++ [y].
Proof. induction pre as [|a pre IH]; [reflexivity|]. cbn. rewrite IH. reflexivity. Qed.

Lemma py_set_last {A} (pre : list A) x y : py_set (pre ++ [x]) (Z.of_nat (length pre)) y = Ok (pre ++ [y]).
Proof. unfold py_set. destruct (Z.of_nat (length pre) <? 0) eqn:E; [lia|]. rewrite E.
  rewrite app_length. cbn [length]. destruct (Z.of_nat (length pre) <? Z.of_nat (length pre + 1)) eqn:F; [|lia].
  rewrite Nat2Z.id, list_set_last. reflexivity. Qed.

(** ** Words and chunks as numbers *)
Fixpoint pack (w : Z) (cs : list Z) : Z :=
  match cs with [] => 0 | c :: cs' => c + pack w cs' * 2 ^ w end.

Lemma pack_app w a b : 0 <= w -> pack w (a ++ b) = pack w a + pack w b * 2 ^ (w * Z.of_nat (length a)).
Proof. intros Hw. induction a as [|x a IH]; [cbn; rewrite Z.mul_0_r; cbn; ring|]. cbn [pack app length].
  rewrite IH. replace (w * Z.of_nat (S (length a))) with (w + w * Z.of_nat (length a)) by lia.
  rewrite Z.pow_add_r by lia. ring. Qed.

Lemma pack_bound w cs : 0 <= w -> Forall (fun c => 0 <= c < 2 ^ w) cs ->
  0 <= pack w cs < 2 ^ (w * Z.of_nat (length cs)).
Proof. intros Hw. induction 1 as [|c cs Hc Hcs IH]; [cbn; rewrite Z.mul_0_r; cbn; lia|]. cbn [pack length].
  replace (w * Z.of_nat (S (length cs))) with (w + w * Z.of_nat (length cs)) by lia.
  rewrite Z.pow_add_r by lia. pose proof (pow2_pos w Hw). nia. Qed.

Definition word (x : Z) : Prop := 0 <= x < 2 ^ 32.

Record rep (w : Z) (q : bitqueue) (cs : list Z) : Prop := {
  rep_ws : q_ws q = w;
  rep_ew : 0 <= q_eq_bit q < 32;
  rep_dw : 0 <= q_dq_bit q < 32;
  rep_ediv : (w | q_eq_bit q);
  rep_ddiv : (w | q_dq_bit q);
  rep_len : 32 * q_eq_word q + q_eq_bit q - q_dq_bit q = w * Z.of_nat (length cs);
  rep_val : pack 32 (q_bytes q) / 2 ^ q_dq_bit q = pack w cs;
  rep_cs : Forall (fun c => 0 <= c < 2 ^ w) cs;
  rep_last : exists pre last, q_bytes q = pre ++ [last] /\ q_eq_word q = Z.of_nat (length pre) /\
             Forall word pre /\ 0 <= last < 2 ^ q_eq_bit q }.

Lemma rep_new w : 0 < w -> (w | 32) -> rep w (bq_new w) [].
Proof. intros Hw Hd. constructor; cbn; try lia; try apply Z.divide_0_r; auto.
  - exists [], 0. repeat split; cbn; auto; lia. Qed.

Lemma divide_room w a : 0 < w -> (w | 32) -> (w | a) -> a < 32 -> a + w <= 32.
Proof. intros Hw [x Hx] [y Hy] H. assert (y < x) by nia. nia. Qed.

Lemma word_mono x n : 0 <= n <= 32 -> 0 <= x < 2 ^ n -> word x.
Proof. intros Hn Hx. unfold word. assert (2 ^ n <= 2 ^ 32) by (apply Z.pow_le_mono_r; lia). lia. Qed.

Lemma enqueue_rep w q cs v f : 0 < w -> (w | 32) -> rep w q cs -> in_word w f = true ->
  exists q', bq_enqueue q v f = Ok q' /\ rep w q' (cs ++ [field v f w]).
Proof. intros Hw Hd R Hf. destruct R as [Rws Rew Rdw Red Rdd Rlen Rval Rcs (pre & last & Eb & Eq & Fp & Hl)].
  unfold in_word in Hf. destruct q as [bytes ew eb db ws]; cbn [q_ws q_eq_bit q_dq_bit q_eq_word q_bytes] in *.
  subst bytes ew ws. unfold bq_enqueue; cbn [q_ws q_eq_bit q_dq_bit q_eq_word q_bytes].
  pose proof (divide_room w eb Hw Hd Red ltac:(lia)) as Room.
  rewrite check_range_ok by lia. cbn [bind].
  destruct (eb + w - 1 >? 31) eqn:C; [lia|]. cbn [bind].
  rewrite py_get_last. cbn [bind]. rewrite Z.max_r by lia.
  rewrite copy_bits_ok by lia. cbn [bind]. rewrite py_set_last. cbn [bind q_ws q_eq_bit q_dq_bit q_eq_word q_bytes].
  rewrite copy_val_with_field by lia. rewrite with_field_high by lia.
  pose proof (field_range v f w ltac:(lia)) as Hc. set (c := field v f w) in *. clearbody c.
  assert (V : pack 32 (pre ++ [last + c * 2 ^ eb]) = pack 32 (pre ++ [last]) + c * 2 ^ (32 * Z.of_nat (length pre) + eb)).
  { rewrite !pack_app by lia. cbn [pack]. rewrite Z.pow_add_r by lia. ring. }
  assert (V2 : pack 32 (pre ++ [last + c * 2 ^ eb]) / 2 ^ db = pack w (cs ++ [c])).
  { rewrite V. replace (32 * Z.of_nat (length pre) + eb) with (w * Z.of_nat (length cs) + db) by lia.
    rewrite Z.pow_add_r by lia. rewrite Z.mul_assoc, Z.div_add by (pose proof (pow2_pos db); lia).
    rewrite Rval, pack_app by lia. cbn [pack]. ring. }
  assert (Hl' : 0 <= last + c * 2 ^ eb < 2 ^ (eb + w)).
  { rewrite Z.pow_add_r by lia. nia. }
  assert (Fc : Forall (fun c => 0 <= c < 2 ^ w) (cs ++ [c])) by (apply Forall_app; split; [exact Rcs|repeat constructor; lia]).
  destruct (eb + w >? 31) eqn:D; eexists; (split; [reflexivity|]); constructor;
    cbn [q_ws q_eq_bit q_dq_bit q_eq_word q_bytes]; try lia; try assumption; try reflexivity.
  - apply Z.divide_sub_r; [apply Z.divide_add_r; [assumption|apply Z.divide_refl]|assumption].
  - rewrite app_length; cbn [length]; lia.
  - rewrite pack_app by lia. cbn [pack]. rewrite Z.mul_0_l, Z.add_0_r. exact V2.
  - exists (pre ++ [last + c * 2 ^ eb]), 0. repeat split.
    + rewrite app_length; cbn [length]; lia.
    + apply Forall_app; split; [assumption|]. repeat constructor; [lia|].
      destruct (word_mono (last + c * 2 ^ eb) (eb + w)); lia.
    + lia.
    + apply pow2_pos; lia.
  - apply Z.divide_add_r; [assumption|apply Z.divide_refl].
  - rewrite app_length; cbn [length]; lia.
  - exists pre, (last + c * 2 ^ eb). auto. Qed.

Lemma dequeue_rep w q c cs v t : 0 < w -> (w | 32) -> rep w q (c :: cs) -> in_word w t = true ->
  exists q', bq_dequeue q v t = Ok (with_field v t w c, q') /\ rep w q' cs.
Proof. intros Hw Hd R Hf. destruct R as [Rws Rew Rdw Red Rdd Rlen Rval Rcs (pre & last & Eb & Eq & Fp & Hl)].
  unfold in_word in Hf. destruct q as [bytes ew eb db ws]; cbn [q_ws q_eq_bit q_dq_bit q_eq_word q_bytes] in *.
  subst ew ws. unfold bq_dequeue; cbn [q_ws q_eq_bit q_dq_bit q_eq_word q_bytes].
  pose proof (divide_room w db Hw Hd Rdd ltac:(lia)) as Room.
  rewrite check_range_ok by lia. cbn [bind].
  destruct (db + w - 1 >? 31) eqn:C; [lia|]. cbn [bind].
  destruct bytes as [|b0 rest]; [destruct pre; discriminate|].
  change (py_get (b0 :: rest) 0) with (Ok b0). cbn [bind].
  rewrite copy_bits_ok by lia. cbn [bind q_ws q_eq_bit q_dq_bit q_eq_word q_bytes].
  rewrite copy_val_with_field by lia.
  inversion Rcs as [|? ? Hc Hcs]; subst.
  assert (Fc : field b0 db w = c).
  { unfold field. assert (E : (pack 32 (b0 :: rest) / 2 ^ db) mod 2 ^ w = c).
    { rewrite Rval. cbn [pack]. rewrite Z.mod_add by (pose proof (pow2_pos w); lia). apply Z.mod_small; lia. }
    rewrite <- E. cbn [pack].
    replace (2 ^ 32) with (2 ^ (32 - db - w) * 2 ^ w * 2 ^ db) by (rewrite <- !Z.pow_add_r by lia; f_equal; lia).
    rewrite !Z.mul_assoc, Z.div_add by (pose proof (pow2_pos db); lia).
    rewrite Z.mod_add by (pose proof (pow2_pos w); lia). reflexivity. }
  rewrite Fc. cbn [length] in Rlen.
  assert (V : pack 32 (b0 :: rest) / 2 ^ (db + w) = pack w cs).
  { rewrite Z.pow_add_r by lia. rewrite <- Z.div_div by (try apply pow2_pos; pose proof (pow2_pos db); lia).
    rewrite Rval. cbn [pack]. rewrite Z.div_add by (pose proof (pow2_pos w); lia). rewrite Z.div_small by lia. lia. }
  destruct (db + w >? 31) eqn:D.
  - cbn [py_pop0 bind]. eexists; split; [reflexivity|].
    assert (db + w = 32) as E32 by lia. rewrite E32 in *.
    destruct pre as [|p0 pre].
    { cbn [length] in Rlen. nia. }
    cbn [app] in Eb. injection Eb as -> ->. inversion Fp as [|? ? Hp0 Hpre]; subst.
    constructor; cbn [q_ws q_eq_bit q_dq_bit q_eq_word q_bytes]; try lia; try assumption; try reflexivity.
    + replace (32 - 32) with 0 by lia. apply Z.divide_0_r.
    + rewrite Z.sub_diag, Z.pow_0_r, Z.div_1_r. rewrite <- V. cbn [pack].
      rewrite Z.div_add by lia. unfold word in Hp0. rewrite Z.div_small by lia. lia.
    + exists pre, last. repeat split; try assumption; try lia. cbn [length]; lia.
  - eexists; split; [reflexivity|].
    constructor; cbn [q_ws q_eq_bit q_dq_bit q_eq_word q_bytes]; try lia; try assumption; try reflexivity.
    + apply Z.divide_add_r; [assumption|apply Z.divide_refl].
    + exists pre, last. auto. Qed.

Lemma empty_rep w q cs : 0 < w -> rep w q cs -> bq_empty q = match cs with [] => true | _ => false end.
Proof. intros Hw [Rws Rew Rdw Red Rdd Rlen Rval Rcs (pre & last & Eb & Eq & Fp & Hl)]. unfold bq_empty.
  destruct (q_eq_word q <? 0) eqn:A; [lia|]. destruct ((q_eq_word q =? 0) && (q_eq_bit q <=? q_dq_bit q)) eqn:B;
  destruct cs as [|c cs]; cbn [length] in Rlen; try reflexivity; nia. Qed.

Lemma enqueue_bad w q cs v f : 0 < w -> (w | 32) -> rep w q cs -> in_word w f = false ->
  bq_enqueue q v f = Err RuntimeError.
Proof. intros Hw Hd R Hf. destruct R as [Rws Rew Rdw Red Rdd Rlen Rval Rcs (pre & last & Eb & Eq & Fp & Hl)].
  unfold in_word in Hf. destruct q as [bytes ew eb db ws]; cbn [q_ws q_eq_bit q_dq_bit q_eq_word q_bytes] in *.
  subst bytes ew ws. unfold bq_enqueue; cbn [q_ws q_eq_bit q_dq_bit q_eq_word q_bytes].
  pose proof (divide_room w eb Hw Hd Red ltac:(lia)) as Room.
  destruct (Z_lt_dec f 0); [rewrite check_range_err by lia; reflexivity|].
  destruct (Z_lt_dec f 32); [|rewrite check_range_err by lia; reflexivity].
  rewrite check_range_ok by lia. cbn [bind].
  destruct (eb + w - 1 >? 31) eqn:C; [lia|]. cbn [bind].
  rewrite py_get_last. cbn [bind]. rewrite Z.max_r by lia.
  rewrite copy_bits_err by lia. reflexivity. Qed.

Lemma dequeue_bad w q c cs v t : 0 < w -> (w | 32) -> rep w q (c :: cs) -> in_word w t = false ->
  bq_dequeue q v t = Err RuntimeError.
Proof. intros Hw Hd R Hf. destruct R as [Rws Rew Rdw Red Rdd Rlen Rval Rcs (pre & last & Eb & Eq & Fp & Hl)].
  unfold in_word in Hf. destruct q as [bytes ew eb db ws]; cbn [q_ws q_eq_bit q_dq_bit q_eq_word q_bytes] in *.
  subst ew ws. unfold bq_dequeue; cbn [q_ws q_eq_bit q_dq_bit q_eq_word q_bytes].
  pose proof (divide_room w db Hw Hd Rdd ltac:(lia)) as Room.
  destruct (Z_lt_dec t 0); [rewrite check_range_err by lia; reflexivity|].
  destruct (Z_lt_dec t 32); [|rewrite check_range_err by lia; reflexivity].
  rewrite check_range_ok by lia. cbn [bind].
  destruct (db + w - 1 >? 31) eqn:C; [lia|]. cbn [bind].
  destruct bytes as [|b0 rest]; [destruct pre; discriminate|].
  change (py_get (b0 :: rest) 0) with (Ok b0). cbn [bind].
  rewrite copy_bits_err by lia. reflexivity. Qed.

Lemma run_rep w ops : 0 < w -> (w | 32) -> forall q cs, rep w q cs ->
  no_underflow (length cs) ops = true ->
  match fifo_run w cs ops with
  | Ok (xs, cs') => exists q', bq_run q ops = Ok (xs, q') /\ rep w q' cs'
  | Err e => bq_run q ops = Err e
  end.
Proof. intros Hw Hd. induction ops as [|o ops IH]; intros q cs R N; cbn [fifo_run bq_run].
  - exists q; auto.
  - destruct o as [v f|v t|]; cbn [bq_step no_underflow] in *.
    + destruct (in_word w f) eqn:I.
      * destruct (enqueue_rep w q cs v f Hw Hd R I) as (q' & -> & R'). cbn [bind].
        specialize (IH q' (cs ++ [field v f w]) R'). rewrite app_length, Nat.add_comm in IH. specialize (IH N).
        destruct (fifo_run w (cs ++ [field v f w]) ops) as [[xs cs']|e]; cbn [bind].
        -- destruct IH as (q'' & -> & R''). cbn [bind]. eauto.
        -- rewrite IH. reflexivity.
      * rewrite (enqueue_bad w q cs v f Hw Hd R I). reflexivity.
    + destruct cs as [|c cs]; [discriminate|]. cbn [length] in N.
      destruct (in_word w t) eqn:I.
      * destruct (dequeue_rep w q c cs v t Hw Hd R I) as (q' & -> & R'). cbn [bind].
        specialize (IH q' cs R' N).
        destruct (fifo_run w cs ops) as [[xs cs']|e]; cbn [bind].
        -- destruct IH as (q'' & -> & R''). cbn [bind]. eauto.
        -- rewrite IH. reflexivity.
      * rewrite (dequeue_bad w q c cs v t Hw Hd R I). reflexivity.
    + cbn [bind]. specialize (IH q cs R N). rewrite (empty_rep w q cs Hw R).
      destruct (fifo_run w cs ops) as [[xs cs']|e]; cbn [bind].
      * destruct IH as (q'' & -> & R''). cbn [bind]. eauto.
      * rewrite IH. reflexivity. Qed.

Lemma fifo_divisors w : 0 < w -> (w | 32) -> is_fifo w.
Proof. intros Hw Hd ops N. pose proof (run_rep w ops Hw Hd (bq_new w) [] (rep_new w Hw Hd) N) as H.
  destruct (fifo_run w [] ops) as [[xs cs']|e]; cbn [same_outputs].
  - destruct H as (q' & -> & _). reflexivity.
  - rewrite H. reflexivity. Qed.

(** ** Word sizes that do not divide 32 *)
Definition fifo_witness : list qop := repeat (QEnq 0x5A5A5A5B 0) 40 ++ repeat (QDeq 0 0) 40.

Definition qout_eqb (a b : qout) : bool :=
  match a, b with
  | OUnit, OUnit => true | OVal x, OVal y => x =? y | OBool x, OBool y => Bool.eqb x y | _, _ => false
  end.
Fixpoint qouts_eqb (a b : list qout) : bool :=
  match a, b with [], [] => true | x :: a', y :: b' => qout_eqb x y && qouts_eqb a' b' | _, _ => false end.

Lemma qouts_eqb_refl a : qouts_eqb a a = true.
Proof. induction a as [|x a IH]; [reflexivity|]. cbn. rewrite IH.
  destruct x as [|v|b]; cbn; [reflexivity|rewrite Z.eqb_refl; reflexivity|destruct b; reflexivity]. Qed.

Definition witness_agrees (w : Z) : bool :=
  match bq_run (bq_new w) fifo_witness, fifo_run w [] fifo_witness with
  | Ok (a, _), Ok (b, _) => qouts_eqb a b
  | Err RuntimeError, Err RuntimeError => true
  | Ok _, Err _ => true
  | Err _, Ok _ => true
  | Err _, Err _ => true
  end.

Lemma witness_table :
  forallb (fun w => if 32 mod w =? 0 then true else negb (witness_agrees w)) (zrange 1 33) = true.
Proof. vm_compute. reflexivity. Qed.

Lemma fifo_iff w : 1 <= w <= 32 -> (is_fifo w <-> (w | 32)).
Proof. intros Hw. split.
  - intros H. assert (Hin : In w (zrange 1 33)) by (apply in_zrange; lia).
    pose proof (proj1 (forallb_forall _ _) witness_table w Hin) as T. cbn beta in T.
    destruct (32 mod w =? 0) eqn:M.
    + apply Z.mod_divide; lia.
    + exfalso. specialize (H fifo_witness eq_refl). unfold witness_agrees in T.
      destruct (bq_run (bq_new w) fifo_witness) as [[a qa]|ea], (fifo_run w [] fifo_witness) as [[b qb]|eb];
        cbn [same_outputs] in H; try contradiction.
      * subst b. rewrite qouts_eqb_refl in T. discriminate.
      * destruct ea; try discriminate T; destruct eb; discriminate T.
  - apply fifo_divisors; lia. Qed.

(** ** get_bytes *)
Lemma pack32_bit ws : Forall word ws -> forall i, 0 <= i ->
  Z.testbit (pack 32 ws) i = Z.testbit (nth (Z.to_nat (i / 32)) ws 0) (i mod 32).
Proof. induction 1 as [|x ws Hx Hws IH]; intros i Hi; cbn [pack].
  - rewrite Z.bits_0. destruct (Z.to_nat (i / 32)); cbn; rewrite Z.bits_0; reflexivity.
  - rewrite testbit_split by (try lia; apply Hx). destruct (i <? 32) eqn:L.
    + rewrite Z.div_small, Z.mod_small by lia. reflexivity.
    + rewrite IH by lia. replace (Z.to_nat (i / 32)) with (S (Z.to_nat ((i - 32) / 32))).
      * cbn [nth]. f_equal. replace i with ((i - 32) + 1 * 32) at 2 by lia. rewrite Z.mod_add by lia. reflexivity.
      * replace i with ((i - 32) + 1 * 32) at 2 by lia. rewrite Z.div_add by lia.
        assert (0 <= (i - 32) / 32) by (apply Z.div_pos; lia). lia. Qed.

Lemma pack_bit w cs : 0 < w -> Forall (fun c => 0 <= c < 2 ^ w) cs -> forall k j, 0 <= j < w ->
  Z.testbit (pack w cs) (w * Z.of_nat k + j) = Z.testbit (nth k cs 0) j.
Proof. intros Hw. induction 1 as [|c cs Hc Hcs IH]; intros k j Hj; cbn [pack].
  - rewrite Z.bits_0. destruct k; cbn; rewrite Z.bits_0; reflexivity.
  - rewrite testbit_split by lia. destruct k as [|k].
    + replace (w * Z.of_nat 0 + j) with j by lia. replace (j <? w) with true by lia. reflexivity.
    + replace (w * Z.of_nat (S k) + j <? w) with false by nia. cbn [nth]. rewrite <- IH by lia. f_equal; lia. Qed.

Definition enq_ops (es : list (Z * Z)) : list qop := map (fun e => QEnq (fst e) (snd e)) es.

Lemma fifo_enq_only w es : forallb (fun e => in_word w (snd e)) es = true -> forall cs,
  fifo_run w cs (enq_ops es) =
  Ok (map (fun _ => OUnit) es, cs ++ map (fun e => field (fst e) (snd e) w) es).
Proof. induction es as [|[v f] es IH]; intros H cs; cbn.
  - rewrite app_nil_r; reflexivity.
  - cbn in H. apply andb_prop in H. destruct H as [H1 H2]. rewrite H1, IH by exact H2. cbn. rewrite <- app_assoc. reflexivity. Qed.

Lemma no_underflow_enq es n : no_underflow n (enq_ops es) = true.
Proof. revert n; induction es; intros n; cbn; auto. Qed.

Lemma enq_dq0 ops q xs q' : (forall v t, ~ In (QDeq v t) ops) ->
  bq_run q ops = Ok (xs, q') -> q_dq_bit q' = q_dq_bit q.
Proof. revert q xs q'. induction ops as [|o ops IH]; intros q xs q' Hn H; cbn [bq_run] in H.
  - injection H as <- <-. reflexivity.
  - destruct (bq_step q o) as [[x q1]|] eqn:S; cbn [bind] in H; [|discriminate].
    destruct (bq_run q1 ops) as [[ys q2]|] eqn:Rn; cbn [bind] in H; [|discriminate].
    injection H as <- <-. rewrite (IH q1 ys q2) by (try assumption; intros v t I; apply (Hn v t); right; exact I).
    destruct o as [v f|v t|]; cbn [bq_step] in S.
    + unfold bq_enqueue in S.
      repeat match type of S with
      | context [bind ?e _] => destruct e eqn:?; cbn [bind] in S; try discriminate S
      end.
      all: try (injection S as <- <-).
      all: repeat match goal with
        | H : Ok _ = Ok _ |- _ => injection H as <-
        | H : (if ?c then _ else _) = Ok _ |- _ => destruct c; cbn [bind] in H; try discriminate H
        | H : bind ?e _ = Ok _ |- _ => destruct e eqn:?; cbn [bind] in H; try discriminate H
        end; reflexivity.
    + exfalso. apply (Hn v t). left; reflexivity.
    + injection S as <- <-. reflexivity. Qed.

Lemma get_bytes_spec w es : 0 < w -> (w | 32) ->
  forallb (fun e => in_word w (snd e)) es = true ->
  exists xs q, bq_run (bq_new w) (enq_ops es) = Ok (xs, q) /\
    Z.of_nat (length (bq_get_bytes q)) = w * Z.of_nat (length es) / 32 + 1 /\
    Forall word (bq_get_bytes q) /\
    (forall k j v f, nth_error es k = Some (v, f) -> 0 <= j < w ->
       let i := w * Z.of_nat k + j in
       Z.testbit (nth (Z.to_nat (i / 32)) (bq_get_bytes q) 0) (i mod 32) = Z.testbit v (f + j)) /\
    (forall i, w * Z.of_nat (length es) <= i ->
       Z.testbit (nth (Z.to_nat (i / 32)) (bq_get_bytes q) 0) (i mod 32) = false).
Proof. intros Hw Hd Hv.
  pose proof (run_rep w (enq_ops es) Hw Hd (bq_new w) [] (rep_new w Hw Hd) (no_underflow_enq es 0)) as H.
  rewrite (fifo_enq_only w es Hv []) in H. destruct H as (q & Hrun & R). cbn [app] in R.
  exists (map (fun _ => OUnit) es), q. split; [exact Hrun|].
  assert (Dq : q_dq_bit q = 0).
  { apply enq_dq0 in Hrun; [exact Hrun|]. intros v t I. unfold enq_ops in I. apply in_map_iff in I.
    destruct I as (e & E & _). discriminate. }
  destruct R as [Rws Rew Rdw Red Rdd Rlen Rval Rcs (pre & last & Eb & Eq & Fp & Hl)].
  rewrite Dq, Z.pow_0_r, Z.div_1_r in Rval. rewrite map_length in Rlen.
  set (cs := map (fun e => field (fst e) (snd e) w) es) in *.
  assert (FW : Forall word (bq_get_bytes q)).
  { unfold bq_get_bytes. rewrite Eb. apply Forall_app; split; [exact Fp|]. repeat constructor; [lia|].
    destruct (word_mono last (q_eq_bit q)); lia. }
  split; [|split; [exact FW|split]].
  - unfold bq_get_bytes. rewrite Eb, app_length. cbn [length].
    replace (w * Z.of_nat (length es)) with (q_eq_bit q + Z.of_nat (length pre) * 32) by lia.
    rewrite Z.div_add, Z.div_small by lia. lia.
  - intros k j v f Hk Hj i. subst i. rewrite <- pack32_bit by (try assumption; nia).
    unfold bq_get_bytes. rewrite Rval, pack_bit by assumption.
    subst cs. erewrite nth_error_nth by (rewrite nth_error_map, Hk; reflexivity). cbn [fst snd].
    assert (I : in_word w f = true).
    { apply nth_error_In in Hk. rewrite forallb_forall in Hv. exact (Hv _ Hk). }
    unfold in_word in I. rewrite field_bit by lia. replace (j <? w) with true by lia. reflexivity.
  - intros i Hi. rewrite <- pack32_bit by (try assumption; nia).
    unfold bq_get_bytes. rewrite Rval. pose proof (pack_bound w cs ltac:(lia) Rcs) as B.
    assert (L : length cs = length es) by (subst cs; apply map_length). rewrite L in B.
    refine (proj1 (bits_bound _ _ _) B i Hi). nia. Qed.

Lemma fifo_fails_for_3 : exists w, 1 <= w <= 32 /\ ~ is_fifo w.
Proof. exists 3. split; [lia|]. intros H. apply fifo_iff in H; [|lia].
  apply Z.mod_divide in H; [discriminate H|lia]. Qed.
