From Verif Require Import ListLemmas BitsModel BitsSpec BitsProofs QueueModel QueueSpec QueueProofs
  InterleaveModel InterleaveSpec InterleaveProofs.
From Coq Require Import ZifyBool ZifyNat.

Lemma enqueue_dq q v f q' : bq_enqueue q v f = Ok q' -> q_dq_bit q' = q_dq_bit q.
Proof. intros H. apply (enq_dq0 [QEnq v f] q [OUnit] q').
  - intros v' t [E|[]]; discriminate.
  - cbn [bq_run bq_step]. rewrite H. reflexivity. Qed.

(** ** Reading a queue's words *)
Lemma rep_bytes w q cs : 0 < w -> (w | 32) -> rep w q cs -> q_dq_bit q = 0 ->
  Z.of_nat (length (q_bytes q)) = w * Z.of_nat (length cs) / 32 + 1 /\
  Forall word (q_bytes q) /\
  (forall t, 0 <= t < Z.of_nat (length cs) ->
     field (nth (Z.to_nat (chunk_word w t)) (q_bytes q) 0) (chunk_bit w t) w = nth (Z.to_nat t) cs 0) /\
  (forall i, w * Z.of_nat (length cs) <= i -> Z.testbit (nth (Z.to_nat (i / 32)) (q_bytes q) 0) (i mod 32) = false).
Proof. intros Hw Hd [Rws Rew Rdw Red Rdd Rlen Rval Rcs (pre & last & Eb & Eq & Fp & Hl)] Dq.
  rewrite Dq, Z.pow_0_r, Z.div_1_r in Rval. rewrite Dq in Rlen.
  assert (FW : Forall word (q_bytes q)).
  { rewrite Eb. apply Forall_app; split; [exact Fp|]. repeat constructor; [lia|].
    destruct (word_mono last (q_eq_bit q)); lia. }
  split; [|split; [exact FW|split]].
  - rewrite Eb, app_length. cbn [length].
    replace (w * Z.of_nat (length cs)) with (q_eq_bit q + Z.of_nat (length pre) * 32) by lia.
    rewrite Z.div_add, Z.div_small by lia. lia.
  - intros t Ht. pose proof (chunk_in_word w t Hw Hd) as I. unfold in_word in I.
    apply nonneg_bits_eq. intros j Hj.
    assert (0 <= chunk_bit w t) by lia. rewrite field_bit by lia.
    destruct (j <? w) eqn:Jw.
    + rewrite <- (pack_bit w cs Hw Rcs (Z.to_nat t) j) by lia. rewrite Z2Nat.id by lia. rewrite <- Rval.
      rewrite pack32_bit by (try assumption; nia). cbn [andb].
      assert (E : (w * t + j) / 32 = chunk_word w t /\ (w * t + j) mod 32 = chunk_bit w t + j).
      { assert (B0 : chunk_bit w t + j < 32) by lia. clear - B0 Hj H Ht Hw.
        unfold chunk_word, chunk_bit in *. pose proof (Z.div_mod (w * t) 32 ltac:(lia)) as DM.
        split; [symmetry; apply Z.div_unique with ((w * t) mod 32 + j)|symmetry; apply Z.mod_unique with (w * t / 32)]; lia. }
      destruct E as [-> ->]. reflexivity.
    + cbn [andb]. symmetry. assert (B : 0 <= nth (Z.to_nat t) cs 0 < 2 ^ w).
      { rewrite Forall_forall in Rcs. apply Rcs, nth_In. lia. }
      refine (proj1 (bits_bound _ _ _) B j _); lia.
  - intros i Hi. rewrite <- pack32_bit by (try assumption; nia).
    rewrite Rval. pose proof (pack_bound w cs ltac:(lia) Rcs) as B.
    refine (proj1 (bits_bound _ _ _) B i Hi). nia. Qed.

Lemma rep_bytes_count w q cs : 0 < w -> rep w q cs -> (length cs <= 32 * length (q_bytes q))%nat.
Proof. intros Hw [Rws Rew Rdw Red Rdd Rlen Rval Rcs (pre & last & Eb & Eq & Fp & Hl)].
  rewrite Eb, app_length. cbn [length]. nia. Qed.

Lemma rep_pos w q cs : 0 < w -> rep w q cs -> q_dq_bit q = 0 ->
  q_eq_word q = chunk_word w (Z.of_nat (length cs)) /\ q_eq_bit q = chunk_bit w (Z.of_nat (length cs)).
Proof. intros Hw [Rws Rew Rdw Red Rdd Rlen Rval Rcs _] Dq. unfold chunk_word, chunk_bit. rewrite Dq in Rlen.
  split; [apply Z.div_unique with (q_eq_bit q)|apply Z.mod_unique with (q_eq_word q)]; lia. Qed.

Section Deint.
Variables (data order : list Z) (w : Z) (tx : dict bitqueue) (rx : dict (option bitqueue)) (L : Z).
Hypothesis Hw : 0 < w.
Hypothesis Hd : (w | 32).
Hypothesis Hn : NoDup order.
Hypothesis Htx : interleave data order w = Ok tx.
Hypothesis Hrem : remains_of rx tx order.
Let P := Z.of_nat (length order).
Let T := nchunks data w.
Hypothesis HL : last_received rx order L.
Let at_ (i : Z) := nth (Z.to_nat i) order (-1).
Let R := rows T P L.

Definition value_at (t : Z) : Z := if received rx (carrier order t) then chunk data w t else 0.
Definition lost_at (t : Z) : bool := negb (received rx (carrier order t)).
Definition pos_at (t : Z) : Z * Z := (chunk_word w t, chunk_bit w t).

Lemma HT : 0 <= T.
Proof. unfold T, nchunks. destruct (divisor_parts w Hw Hd) as (_ & H & _). nia. Qed.
Lemma HP : 0 < P.
Proof. unfold P. destruct HL as (H & _). lia. Qed.

Definition inv (r i : Z) (st : dict (option bitqueue) * bitqueue * list (Z * Z)) : Prop :=
  let '(pk, dq, errs) := st in
  rep w dq (map value_at (zrange 0 (r * P + i))) /\ q_dq_bit dq = 0 /\
  errs = map pos_at (filter lost_at (zrange 0 (r * P + i))) /\
  forall j, 0 <= j < P ->
    if received rx (at_ j)
    then exists q, dget pk (at_ j) = Some (Some q) /\
         rep w q (map (fun s => chunk data w (s * P + j)) (zrange (if j <? i then r + 1 else r) (rows T P j)))
    else dget pk (at_ j) = dget rx (at_ j).

Lemma at_inj i j : 0 <= i < P -> 0 <= j < P -> at_ i = at_ j -> i = j.
Proof. unfold at_, P. intros Hi Hj E. assert (Z.to_nat i = Z.to_nat j); [|lia].
  eapply (proj1 (NoDup_nth order (-1)) Hn); [lia|lia|exact E]. Qed.

Lemma carrier_at r i : 0 <= i < P -> carrier order (r * P + i) = at_ i.
Proof. intros Hi. unfold carrier, at_. fold P. rewrite Z.add_comm, Z.mod_add, Z.mod_small by lia. reflexivity. Qed.

Lemma field_small v : 0 <= v < 2 ^ w -> field v 0 w = v.
Proof. intros. unfold field. rewrite Z.pow_0_r, Z.div_1_r, Z.mod_small by lia. reflexivity. Qed.

Lemma in_word0 : in_word w 0 = true.
Proof. unfold in_word. destruct (divisor_parts w Hw Hd) as (_ & _ & H). lia. Qed.

Lemma step_inv r i st : 0 <= r -> 0 <= i < P ->
  (received rx (at_ i) = true -> r < rows T P i) -> inv r i st ->
  exists st', take_chunk st (at_ i) = Ok st' /\ inv r (i + 1) st'.
Proof. intros Hr Hi Hrow I. destruct st as [[pk dq] errs]. destruct I as (Rd & D0 & Ee & Hq).
  pose proof HP as HP'. pose proof (Hq i Hi) as Hqi. unfold take_chunk.
  assert (Ezr : zrange 0 (r * P + (i + 1)) = zrange 0 (r * P + i) ++ [r * P + i]).
  { rewrite <- zrange_snoc by nia. f_equal. lia. }
  assert (Elen : Z.of_nat (length (map value_at (zrange 0 (r * P + i)))) = r * P + i).
  { rewrite map_length, zrange_length. nia. }
  destruct (received rx (at_ i)) eqn:Rec.
  - destruct Hqi as (q & Eq & Rq). rewrite Eq. replace (i <? i) with false in Rq by lia.
    rewrite zrange_cons in Rq by auto. cbn [map] in Rq.
    destruct (dequeue_rep w q _ _ 0 0 Hw Hd Rq in_word0) as (q' & Edq & Rq'). rewrite Edq. cbn [bind].
    set (c := chunk data w (r * P + i)) in *.
    assert (Hc : 0 <= c < 2 ^ w) by (destruct Rq as [_ _ _ _ _ _ _ Rcs _]; inversion Rcs; assumption).
    assert (Ea : with_field 0 0 w c = c).
    { unfold with_field, field. rewrite Z.pow_0_r, Z.div_1_r, Z.mod_0_l by lia. lia. }
    rewrite Ea. destruct (enqueue_rep w dq _ c 0 Hw Hd Rd in_word0) as (dq' & Eenq & Rd'). rewrite Eenq. cbn [bind].
    eexists. split; [reflexivity|]. cbn [inv]. rewrite field_small in Rd' by exact Hc.
    split; [|split; [|split]].
    + rewrite Ezr, map_app. cbn [map]. replace (value_at (r * P + i)) with c; [exact Rd'|].
      unfold value_at. rewrite carrier_at, Rec by lia. reflexivity.
    + apply enqueue_dq in Eenq. congruence.
    + rewrite Ezr, filter_app. cbn [filter].
      replace (lost_at (r * P + i)) with false; [rewrite app_nil_r; exact Ee|].
      unfold lost_at. rewrite carrier_at, Rec by lia. reflexivity.
    + intros j Hj. destruct (Z.eq_dec j i) as [->|Ne].
      * rewrite Rec. exists q'. rewrite dget_dset_same. split; [reflexivity|].
        replace (i <? i + 1) with true by lia. exact Rq'.
      * assert (at_ j <> at_ i) by (intros X; apply Ne, at_inj; assumption).
        specialize (Hq j Hj). rewrite dget_dset_other by assumption. destruct (received rx (at_ j)) eqn:Rj; [|exact Hq].
        destruct Hq as (q2 & E2 & R2). exists q2. split; [exact E2|].
        replace (j <? i + 1) with (j <? i) by lia. exact R2.
  - rewrite Hqi. destruct (enqueue_rep w dq _ 0 0 Hw Hd Rd in_word0) as (dq' & Eenq & Rd').
    destruct (rep_pos w dq _ Hw Rd D0) as [P1 P2]. rewrite Elen in P1, P2.
    assert (Em : match dget rx (at_ i) with
       | Some (Some q) => let* (a, q') := bq_dequeue q 0 0 in
           let* data' := bq_enqueue dq a 0 in Ok (dset pk (at_ i) (Some q'), data', errs)
       | _ => let* data' := bq_enqueue dq 0 0 in Ok (pk, data', errs ++ [(q_eq_word dq, q_eq_bit dq)]) end
       = Ok (pk, dq', errs ++ [(q_eq_word dq, q_eq_bit dq)])).
    { unfold received in Rec. destruct (dget rx (at_ i)) as [[q|]|]; [discriminate| |]; rewrite Eenq; reflexivity. }
    rewrite Em. eexists. split; [reflexivity|]. cbn [inv].
    rewrite field_small in Rd' by (split; [lia|apply pow2_pos; lia]).
    split; [|split; [|split]].
    + rewrite Ezr, map_app. cbn [map]. replace (value_at (r * P + i)) with 0; [exact Rd'|].
      unfold value_at. rewrite carrier_at, Rec by lia. reflexivity.
    + apply enqueue_dq in Eenq. congruence.
    + rewrite Ezr, filter_app. cbn [filter].
      replace (lost_at (r * P + i)) with true; [|unfold lost_at; rewrite carrier_at, Rec by lia; reflexivity].
      rewrite map_app. cbn [map]. rewrite <- Ee. unfold pos_at. rewrite P1, P2. reflexivity.
    + intros j Hj. specialize (Hq j Hj). destruct (received rx (at_ j)) eqn:Rj; [|exact Hq].
      destruct Hq as (q2 & E2 & R2). exists q2. split; [exact E2|].
      assert (j <> i) by congruence. replace (j <? i + 1) with (j <? i) by lia. exact R2. Qed.

Lemma pass_inv r st : 0 <= r -> (forall i, 0 <= i < P -> received rx (at_ i) = true -> r < rows T P i) ->
  inv r 0 st -> exists st', foldM take_chunk order st = Ok st' /\ inv (r + 1) 0 st'.
Proof. intros Hr Hrow.
  assert (G : forall suf pre st, order = pre ++ suf -> inv r (Z.of_nat (length pre)) st ->
     exists st', foldM take_chunk suf st = Ok st' /\ inv r P st').
  { induction suf as [|p suf IH]; intros pre st0 E I; cbn [foldM].
    - exists st0. split; [reflexivity|]. rewrite app_nil_r in E. subst pre. exact I.
    - assert (Hi : 0 <= Z.of_nat (length pre) < P) by (unfold P; rewrite E, app_length; cbn [length]; lia).
      assert (Ep : p = at_ (Z.of_nat (length pre))).
      { unfold at_. rewrite Nat2Z.id, E, app_nth2, Nat.sub_diag by lia. reflexivity. }
      destruct (step_inv r (Z.of_nat (length pre)) st0 Hr Hi (Hrow _ Hi) I) as (st1 & E1 & I1).
      rewrite Ep, E1. cbn [bind]. apply (IH (pre ++ [p])); [rewrite <- app_assoc; exact E|].
      rewrite app_length, Nat2Z.inj_add. exact I1. }
  intros I. destruct (G order [] st eq_refl I) as (st' & E & I'). exists st'. split; [exact E|].
  destruct st' as [[pk dq] errs]. destruct I' as (Rd & D0 & Ee & Hq). unfold inv.
  replace ((r + 1) * P + 0) with (r * P + P) by lia. repeat split; try assumption; try apply Rd.
  intros j Hj. specialize (Hq j Hj). destruct (received rx (at_ j)); [|exact Hq].
  replace (j <? P) with true in Hq by lia. replace (j <? 0) with false by lia. exact Hq. Qed.

Lemma rows_mono i j : 0 <= i <= j -> j < P -> rows T P j <= rows T P i.
Proof. intros Hij Hj. pose proof HT. pose proof HP.
  destruct (Z.lt_ge_cases (rows T P i) (rows T P j)) as [A|A]; [|exact A].
  apply rows_spec in A; [|lia..]. assert (rows T P i < rows T P i); [|lia]. apply rows_spec; lia. Qed.

Lemma alive_le i : 0 <= i < P -> received rx (at_ i) = true -> i <= L.
Proof. intros Hi H. destruct HL as (_ & _ & HN). destruct (Z.le_gt_cases i L); [assumption|].
  unfold received, at_ in H. fold P in HN. rewrite HN in H by lia. discriminate. Qed.

Lemma loop_inv fuel : forall r st, 0 <= r <= R -> R - r <= Z.of_nat fuel -> inv r 0 st ->
  exists st', deinterleave_loop fuel order (at_ L) st = Ok st' /\ inv R 0 st'.
Proof. destruct HL as (HLb & HLr & _). fold P in HLb. fold (at_ L) in HLr.
  induction fuel as [|fuel IH]; intros r st Hr Hf I; pose proof I as I0; destruct st as [[pk dq] errs];
  destruct I as (Rd & D0 & Ee & Hq); specialize (Hq L HLb); rewrite HLr in Hq; destruct Hq as (q & Eq & Rq);
  replace (L <? 0) with false in Rq by lia; fold R in Rq;
  cbn [deinterleave_loop fst]; rewrite Eq, (empty_rep w q _ Hw Rq).
  - rewrite zrange_nil by lia. cbn [map]. eexists. split; [reflexivity|]. replace R with r by lia. exact I0.
  - destruct (Z.eq_dec r R) as [->|Ne].
    + rewrite zrange_nil by lia. cbn [map]. eexists. split; [reflexivity|exact I0].
    + rewrite zrange_cons by lia. cbn [map].
      destruct (pass_inv r (pk, dq, errs)) as (st1 & E1 & I1); [lia| |exact I0|].
      * intros i Hi Hrec. pose proof (alive_le i Hi Hrec). pose proof (rows_mono i L ltac:(lia) ltac:(lia)). fold R in H0. lia.
      * rewrite E1. cbn [bind]. apply (IH (r + 1)); [lia|lia|exact I1]. Qed.

Lemma last_alive_spec : forall n, L < Z.of_nat n <= P -> last_alive rx order n = Ok L.
Proof. destruct HL as (HLb & HLr & HN). fold P in HLb, HN.
  induction n as [|n IH]; intros Hn'; [lia|]. cbn [last_alive].
  assert (Ep : nth_r order n = Ok (at_ (Z.of_nat n))).
  { unfold nth_r, at_. rewrite Nat2Z.id. rewrite (nth_error_nth' _ (-1)) by (unfold P in *; lia). reflexivity. }
  rewrite Ep. cbn [bind]. destruct (Z.eq_dec (Z.of_nat n) L) as [E|E].
  - rewrite E. unfold received in HLr. unfold dget_r, at_.
    destruct (dget rx (nth (Z.to_nat L) order (-1))) as [[q|]|]; try discriminate. reflexivity.
  - unfold dget_r, at_. rewrite HN by lia. cbn [bind]. apply IH. lia. Qed.

Lemma deint_main : 1 <= L -> exists bytes,
  deinterleave rx order w = Ok (bytes, map pos_at (filter lost_at (zrange 0 (R * P)))) /\
  Z.of_nat (length bytes) = w * (R * P) / 32 + 1 /\
  Forall word bytes /\
  (forall t, 0 <= t < R * P -> chunk bytes w t = value_at t) /\
  (forall i, w * (R * P) <= i -> Z.testbit (nth (Z.to_nat (i / 32)) bytes 0) (i mod 32) = false).
Proof. intros HL1. pose proof HP as HP'. pose proof HT as HT'.
  assert (HLb : 0 <= L < P) by (destruct HL as (H & _); exact H).
  assert (HLr : received rx (at_ L) = true) by (destruct HL as (_ & H & _); exact H).
  unfold deinterleave. rewrite last_alive_spec by (unfold P in *; lia). cbn [bind].
  replace (L =? 0) with false by lia.
  assert (Eg : py_get order L = Ok (at_ L)).
  { unfold py_get. replace (L <? 0) with false by lia. replace (L <? 0) with false by lia. unfold nth_r, at_.
    rewrite (nth_error_nth' _ (-1)) by (unfold P in *; lia). reflexivity. }
  rewrite Eg. cbn [bind].
  assert (I : inv 0 0 (rx, bq_new w, [])).
  { unfold inv. replace (0 * P + 0) with 0 by lia. rewrite zrange_nil by lia. cbn [map filter].
    split; [apply rep_new; assumption|]. split; [reflexivity|]. split; [reflexivity|].
    intros j Hj. destruct (received rx (at_ j)) eqn:Rj; [|reflexivity].
    replace (j <? 0) with false by lia. unfold received in Rj.
    destruct (dget rx (at_ j)) as [[q|]|] eqn:Eq; try discriminate. exists q. split; [reflexivity|].
    assert (In (at_ j) order) by (apply nth_In; unfold P in *; lia).
    destruct (packet_rep data order w tx j Hw Hd Hn Htx Hj) as (q' & Eq' & Rq').
    rewrite (Hrem _ q) in Eq' by assumption. injection Eq' as <-. exact Rq'. }
  unfold dget_r. destruct (dget rx (at_ L)) as [x|] eqn:Ex; [|unfold received in HLr; rewrite Ex in HLr; discriminate].
  destruct x as [q|]; [|unfold received in HLr; rewrite Ex in HLr; discriminate]. cbn [bind].
  pose proof (rows_nonneg T P L HP' HLb HT') as HR. fold R in HR.
  destruct (loop_inv (32 * length (q_bytes q) + 1) 0 (rx, bq_new w, [])) as ([[pk dq] errs] & El & If).
  - lia.
  - pose proof I as I'. destruct I' as (_ & _ & _ & Hq). specialize (Hq L HLb). rewrite HLr in Hq.
    destruct Hq as (q' & Eq' & Rq'). assert (q' = q) by congruence. subst q'.
    pose proof (rep_bytes_count w q _ Hw Rq') as B. rewrite map_length, zrange_length in B. replace (L <? 0) with false in B by lia.
    fold R in B. lia.
  - exact I.
  - rewrite El. cbn [bind]. destruct If as (Rd & D0 & Ee & _).
    replace (R * P + 0) with (R * P) in * by lia.
    destruct (rep_bytes w dq _ Hw Hd Rd D0) as (B1 & B2 & B3 & B4).
    rewrite map_length, zrange_length in B1, B3, B4. replace (Z.of_nat (Z.to_nat (R * P - 0))) with (R * P) in * by nia.
    exists (q_bytes dq). unfold bq_get_bytes. rewrite Ee. repeat split; try assumption.
    intros t Ht. unfold chunk. rewrite B3 by assumption.
    rewrite nth_indep with (d' := value_at 0) by (rewrite map_length, zrange_length; lia).
    rewrite (map_nth value_at). rewrite nth_zrange by lia. f_equal. lia. Qed.
End Deint.

(** ** Consequences *)
Lemma deinterleave_stream data order w tx rx L : 0 < w -> (w | 32) -> NoDup order ->
  interleave data order w = Ok tx -> remains_of rx tx order -> last_received rx order L -> 1 <= L ->
  let P := Z.of_nat (length order) in
  let N := P * ((nchunks data w - 1 - L) / P + 1) in
  exists words,
    deinterleave rx order w =
      Ok (words, map (fun t => (chunk_word w t, chunk_bit w t))
                     (filter (fun t => negb (received rx (carrier order t))) (zrange 0 N))) /\
    Z.of_nat (length words) = w * N / 32 + 1 /\
    Forall (fun x => 0 <= x < 2 ^ 32) words /\
    (forall t, 0 <= t < N -> chunk words w t = if received rx (carrier order t) then chunk data w t else 0) /\
    (forall i, w * N <= i -> Z.testbit (nth (Z.to_nat (i / 32)) words 0) (i mod 32) = false).
Proof. intros Hw Hd Hn Htx Hrem HL HL1 P N.
  destruct (deint_main data order w tx rx L Hw Hd Hn Htx Hrem HL HL1) as (b & H).
  unfold rows in H. fold P in H. replace (((nchunks data w - 1 - L) / P + 1) * P) with N in H by (subst N; lia).
  exists b. exact H. Qed.

(** A word list is determined by its chunks. *)
Lemma chunk_testbit l w t j : 0 < w -> (w | 32) -> 0 <= t -> 0 <= j < w ->
  Z.testbit (chunk l w t) j = Z.testbit (nth (Z.to_nat ((w * t + j) / 32)) l 0) ((w * t + j) mod 32).
Proof. intros Hw Hd Ht Hj. pose proof (chunk_in_word w t Hw Hd) as I. unfold in_word in I.
  unfold chunk. rewrite field_bit by lia. replace (j <? w) with true by lia. cbn [andb].
  assert (B0 : chunk_bit w t + j < 32) by lia. unfold chunk_word, chunk_bit in *.
  pose proof (Z.div_mod (w * t) 32 ltac:(lia)) as DM.
  replace ((w * t + j) / 32) with (w * t / 32) by (apply Z.div_unique with ((w * t) mod 32 + j); lia).
  replace ((w * t + j) mod 32) with ((w * t) mod 32 + j) by (apply Z.mod_unique with (w * t / 32); lia).
  reflexivity. Qed.

Lemma mod_word_bit x i : 0 <= i -> Z.testbit (x mod 2 ^ 32) i = (i <? 32) && Z.testbit x i.
Proof. intros Hi. destruct (Z.ltb_spec i 32).
  - rewrite Z.mod_pow2_bits_low by lia. reflexivity.
  - rewrite Z.mod_pow2_bits_high by lia. reflexivity. Qed.

Lemma words_from_chunks data words w : 0 < w -> (w | 32) ->
  Z.of_nat (length words) = Z.of_nat (length data) + 1 -> Forall word words ->
  (forall t, 0 <= t < nchunks data w -> chunk words w t = chunk data w t) ->
  (forall i, 32 * Z.of_nat (length data) <= i -> Z.testbit (nth (Z.to_nat (i / 32)) words 0) (i mod 32) = false) ->
  words = map (fun x => x mod 2 ^ 32) data ++ [0].
Proof. intros Hw Hd Hl HF Hc Hz. destruct (divisor_parts w Hw Hd) as (En & Hn & _).
  apply nth_ext with 0 0; [rewrite app_length, map_length; cbn [length]; lia|].
  intros k Hk. apply nonneg_bits_eq. intros i Hi.
  assert (Hwk : word (nth k words 0)) by (rewrite Forall_forall in HF; apply HF, nth_In, Hk).
  destruct (Z.lt_ge_cases i 32) as [Hi32|Hi32].
  - assert (Ei : (32 * Z.of_nat k + i) / 32 = Z.of_nat k) by (symmetry; apply Z.div_unique with i; lia).
    assert (Em : (32 * Z.of_nat k + i) mod 32 = i) by (symmetry; apply Z.mod_unique with (Z.of_nat k); lia).
    destruct (Nat.lt_ge_cases k (length data)) as [Kd|Kd].
    + rewrite app_nth1 by (rewrite map_length; lia).
      rewrite nth_indep with (d' := 0 mod 2 ^ 32) (l := map _ data) by (rewrite map_length; lia).
      rewrite (map_nth (fun x => x mod 2 ^ 32)), mod_word_bit by lia. replace (i <? 32) with true by lia. cbn [andb].
      set (n := 32 / w) in *. clearbody n.
      pose proof (Z.div_mod i w ltac:(lia)) as DM. pose proof (Z.mod_pos_bound i w Hw) as MB.
      assert (Hq : 0 <= i / w < n) by (split; [apply Z.div_pos; lia|apply Z.div_lt_upper_bound; lia]).
      set (t := n * Z.of_nat k + i / w). assert (Et : w * t + i mod w = 32 * Z.of_nat k + i) by (subst t; nia).
      pose proof (chunk_testbit words w t (i mod w) Hw Hd ltac:(subst t; nia) MB) as C1.
      pose proof (chunk_testbit data w t (i mod w) Hw Hd ltac:(subst t; nia) MB) as C2.
      rewrite Et, Ei, Em, Nat2Z.id in C1, C2. rewrite <- C1, <- C2. f_equal. apply Hc.
      unfold nchunks. rewrite <- En in *. replace (w * n / w) with n by (rewrite Z.mul_comm, Z.div_mul; lia). subst t. nia.
    + rewrite app_nth2 by (rewrite map_length; lia). rewrite map_length.
      replace (k - length data)%nat with 0%nat by lia. cbn [nth]. rewrite Z.bits_0.
      pose proof (Hz (32 * Z.of_nat k + i) ltac:(lia)) as Z0. rewrite Ei, Em, Nat2Z.id in Z0. exact Z0.
  - assert (F : forall x, word x -> Z.testbit x i = false).
    { intros x Hx. refine (proj1 (bits_bound x 32 _) Hx i _); [unfold word in Hx; lia|lia]. }
    rewrite !F; [reflexivity| |exact Hwk].
    destruct (Nat.lt_ge_cases k (length data)).
    + rewrite app_nth1 by (rewrite map_length; lia).
      rewrite nth_indep with (d' := 0 mod 2 ^ 32) (l := map _ data) by (rewrite map_length; lia).
      rewrite (map_nth (fun x => x mod 2 ^ 32)). apply Z.mod_pos_bound. reflexivity.
    + rewrite app_nth2 by (rewrite map_length; lia). rewrite map_length.
      replace (k - length data)%nat with 0%nat by lia. cbn [nth]. split; [lia|reflexivity]. Qed.

Lemma dget_all_received tx p : dget (all_received tx) p = match dget tx p with Some q => Some (Some q) | None => None end.
Proof. induction tx as [|[k q] tx IH]; cbn; [reflexivity|]. destruct (p =? k); [reflexivity|exact IH]. Qed.

Lemma interleave_has data order w tx p : 0 < w -> (w | 32) -> interleave data order w = Ok tx -> In p order -> exists q, dget tx p = Some q.
Proof. intros Hw Hd E Hp. assert (order <> []) by (intros ->; contradiction).
  destruct (interleave_round_robin data order w Hw Hd H) as (pk & E' & _ & _ & G). rewrite E in E'. injection E' as <-.
  destruct (G p Hp) as (_ & q & _ & Hq). eauto. Qed.

Lemma no_loss data order w tx : 0 < w -> (w | 32) -> order <> [] -> interleave data order w = Ok tx ->
  remains_of (all_received tx) tx order /\
  (forall p, In p order -> received (all_received tx) p = true) /\
  last_received (all_received tx) order (Z.of_nat (length order) - 1).
Proof. intros Hw Hd Hne E.
  assert (A : forall p, In p order -> received (all_received tx) p = true).
  { intros p Hp. destruct (interleave_has data order w tx p Hw Hd E Hp) as (q & Hq). unfold received.
    rewrite dget_all_received, Hq. reflexivity. }
  assert (0 < Z.of_nat (length order)) by (destruct order; [congruence|cbn; lia]).
  split; [|split].
  - intros p q Hp H1. rewrite dget_all_received in H1. destruct (dget tx p); congruence.
  - exact A.
  - split; [lia|]. split; [apply A, nth_In; lia|]. intros i Hi. lia. Qed.

Lemma filter_none {A} (f : A -> bool) l : (forall x, In x l -> f x = false) -> filter f l = [].
Proof. induction l as [|a l IH]; intros H; [reflexivity|]. cbn. rewrite H by (left; reflexivity).
  apply IH. intros; apply H; right; assumption. Qed.

Lemma full_rows T P : 0 < P -> P * ((T - 1 - (P - 1)) / P + 1) = P * (T / P).
Proof. intros HP. replace (T - 1 - (P - 1)) with (T + (-1) * P) by lia. rewrite Z.div_add by lia. f_equal. lia. Qed.

(** C14, exact. *)
Lemma round_trip_exact data order w : 0 < w -> (w | 32) -> NoDup order -> (2 <= length order)%nat ->
  let P := Z.of_nat (length order) in let T := nchunks data w in
  exists tx words, interleave data order w = Ok tx /\
    deinterleave (all_received tx) order w = Ok (words, []) /\
    Forall (fun x => 0 <= x < 2 ^ 32) words /\
    forall t, 0 <= t -> chunk words w t = if t <? P * (T / P) then chunk data w t else 0.
Proof. intros Hw Hd Hn HP P T. assert (Hne : order <> []) by (intros ->; cbn in HP; lia).
  destruct (interleave_round_robin data order w Hw Hd Hne) as (tx & E & _). exists tx.
  destruct (no_loss data order w tx Hw Hd Hne E) as (N1 & N2 & N3).
  destruct (deinterleave_stream data order w tx _ _ Hw Hd Hn E N1 N3 ltac:(lia)) as (words & D1 & D2 & D3 & D4 & D5).
  fold P T in D1, D2, D4, D5. rewrite full_rows in * by lia.
  exists words. split; [exact E|]. split; [|split; [exact D3|]].
  - rewrite D1, filter_none; [reflexivity|]. intros t _. rewrite N2; [reflexivity|]. apply carrier_in, Hne.
  - intros t Ht. destruct (Z.ltb_spec t (P * (T / P))).
    + rewrite D4 by lia. rewrite N2; [reflexivity|apply carrier_in, Hne].
    + apply nonneg_bits_eq. intros j Hj. rewrite Z.bits_0. destruct (Z.lt_ge_cases j w).
      * rewrite chunk_testbit by (try assumption; lia). apply D5.
        pose proof (Z.mul_le_mono_nonneg_l _ _ w ltac:(lia) H). lia.
      * unfold chunk. pose proof (chunk_in_word w t Hw Hd) as I. unfold in_word in I. rewrite field_bit by lia.
        replace (j <? w) with false by lia. reflexivity. Qed.

Lemma round_trip data order w : 0 < w -> (w | 32) -> NoDup order -> (2 <= length order)%nat ->
  (Z.of_nat (length order) | nchunks data w) ->
  exists tx, interleave data order w = Ok tx /\
    deinterleave (all_received tx) order w = Ok (map (fun x => x mod 2 ^ 32) data ++ [0], []).
Proof. intros Hw Hd Hn HP Hdiv. assert (Hne : order <> []) by (intros ->; cbn in HP; lia).
  destruct (interleave_round_robin data order w Hw Hd Hne) as (tx & E & _). exists tx. split; [exact E|].
  destruct (no_loss data order w tx Hw Hd Hne E) as (N1 & N2 & N3).
  destruct (deinterleave_stream data order w tx _ _ Hw Hd Hn E N1 N3 ltac:(lia)) as (words & D1 & D2 & D3 & D4 & D5).
  set (P := Z.of_nat (length order)) in *. set (T := nchunks data w) in *. rewrite full_rows in * by lia.
  assert (ET : P * (T / P) = T) by (destruct Hdiv as [k ->]; rewrite Z.div_mul; lia). rewrite ET in *.
  destruct (divisor_parts w Hw Hd) as (En & Hn' & _).
  assert (EwT : w * T = 32 * Z.of_nat (length data)) by (subst T; unfold nchunks; nia).
  rewrite D1, filter_none; [|intros t _; rewrite N2; [reflexivity|apply carrier_in, Hne]]. cbn [map]. do 2 f_equal.
  apply words_from_chunks with w; try assumption.
  - rewrite D2, EwT. rewrite Z.mul_comm, Z.div_mul by lia. reflexivity.
  - intros t Ht. rewrite D4 by assumption. rewrite N2; [reflexivity|apply carrier_in, Hne].
  - rewrite <- EwT. exact D5. Qed.

(** C16. *)
Lemma scan_split (rx : dict (option bitqueue)) order :
  forall n, (n <= length order)%nat ->
  (exists i, (i < n)%nat /\ (forall j, (i < j < n)%nat -> dget rx (nth j order (-1)) = Some None) /\
             ((received rx (nth i order (-1)) = true /\ last_alive rx order n = Ok (Z.of_nat i)) \/
              (dget rx (nth i order (-1)) = None /\ last_alive rx order n = Err KeyError))) \/
  ((forall j, (j < n)%nat -> dget rx (nth j order (-1)) = Some None) /\ last_alive rx order n = Ok (-1)).
Proof. induction n as [|n IH]; intros Hn; [right; split; [lia|reflexivity]|].
  cbn [last_alive]. unfold nth_r. rewrite (nth_error_nth' order (-1)) by lia. cbn [bind]. unfold dget_r.
  destruct (dget rx (nth n order (-1))) as [[q|]|] eqn:E; cbn [bind].
  - left. exists n. split; [lia|]. split; [lia|]. left. split; [unfold received; rewrite E; reflexivity|reflexivity].
  - destruct (IH ltac:(lia)) as [(i & Hi & Hj & H)|(H1 & H2)].
    + left. exists i. split; [lia|]. split; [|exact H]. intros j Hij. destruct (Nat.eq_dec j n) as [->|]; [exact E|apply Hj; lia].
    + right. split; [|exact H2]. intros j Hj. destruct (Nat.eq_dec j n) as [->|]; [exact E|apply H1; lia].
  - left. exists n. split; [lia|]. split; [lia|]. right. auto. Qed.

Lemma deinterleave_outcome data order w tx rx : 0 < w -> (w | 32) -> NoDup order -> order <> [] ->
  interleave data order w = Ok tx -> remains_of rx tx order ->
  (last_received rx order 0 /\ deinterleave rx order w = Err RuntimeError) \/
  ((exists L, 1 <= L /\ last_received rx order L) /\ exists r, deinterleave rx order w = Ok r) \/
  ((forall p, In p order -> dget rx p = Some None) /\ deinterleave rx order w = Err AttributeError) \/
  ((exists p, In p order /\ dget rx p = None) /\ deinterleave rx order w = Err KeyError).
Proof. intros Hw Hd Hn Hne E Hrem.
  assert (Pos : (0 < length order)%nat) by (destruct order; [congruence|cbn; lia]).
  destruct (scan_split rx order (length order) (le_n _)) as [(i & Hi & Hj & [[Hr Hs]|[Hr Hs]])|(H1 & H2)].
  - assert (LR : last_received rx order (Z.of_nat i)).
    { split; [lia|]. rewrite Nat2Z.id. split; [exact Hr|]. intros j Hjj. apply Hj. lia. }
    destruct (Nat.eq_dec i 0) as [->|Hi0].
    + left. split; [exact LR|]. unfold deinterleave. rewrite Hs. reflexivity.
    + right; left. split; [exists (Z.of_nat i); split; [lia|exact LR]|].
      destruct (deinterleave_stream data order w tx rx (Z.of_nat i) Hw Hd Hn E Hrem LR ltac:(lia)) as (words & D1 & _).
      eexists; exact D1.
  - right; right; right. split.
    + exists (nth i order (-1)). split; [apply nth_In; lia|exact Hr].
    + unfold deinterleave. rewrite Hs. reflexivity.
  - right; right; left. split.
    + intros p Hp. destruct (In_nth order p (-1) Hp) as (j & Hj & <-). apply H1, Hj.
    + unfold deinterleave. rewrite H2. cbn [bind Z.eqb].
      unfold py_get. change (-1 <? 0) with true. cbv beta iota. replace (-1 + Z.of_nat (length order) <? 0) with false by lia.
      unfold nth_r. rewrite (nth_error_nth' order (-1)) by lia. cbn [bind]. unfold dget_r. rewrite H1 by lia. cbn [bind deinterleave_loop fst].
      rewrite H1 by lia. reflexivity. Qed.

Lemma runtime_error_iff data order w tx rx : 0 < w -> (w | 32) -> NoDup order -> order <> [] ->
  interleave data order w = Ok tx -> remains_of rx tx order ->
  (deinterleave rx order w = Err RuntimeError <-> last_received rx order 0).
Proof. intros Hw Hd Hn Hne E Hrem.
  destruct (deinterleave_outcome data order w tx rx Hw Hd Hn Hne E Hrem) as [[A B]|[[(L & L1 & A) (r & B)]|[[A B]|[(p & Hp & A) B]]]]; rewrite B.
  - tauto.
  - split; [discriminate|]. intros (C1 & C2 & C3). exfalso. destruct A as (A1 & A2 & _). unfold received in A2.
    rewrite C3 in A2 by lia. discriminate.
  - split; [discriminate|]. intros (C1 & C2 & C3). exfalso. unfold received in C2. rewrite A in C2; [discriminate|].
    apply nth_In. lia.
  - split; [discriminate|]. intros (C1 & C2 & C3). exfalso. destruct (In_nth order p (-1) Hp) as (j & Hj & <-).
    destruct j as [|j]; [unfold received in C2; change (Z.to_nat 0) with 0%nat in C2; rewrite A in C2; discriminate|].
    specialize (C3 (Z.of_nat (S j)) ltac:(lia)). rewrite Nat2Z.id in C3. congruence. Qed.

Lemma single_packet data p w : 0 < w -> (w | 32) ->
  exists tx, interleave data [p] w = Ok tx /\ deinterleave (all_received tx) [p] w = Err RuntimeError.
Proof. intros Hw Hd. destruct (interleave_round_robin data [p] w Hw Hd ltac:(discriminate)) as (tx & E & _).
  exists tx. split; [exact E|]. destruct (no_loss data [p] w tx Hw Hd ltac:(discriminate) E) as (N1 & N2 & N3).
  apply (runtime_error_iff data [p] w tx _ Hw Hd); try assumption; [repeat constructor; auto|discriminate]. Qed.

Lemma divisible_rows T P L : 0 < P -> 0 <= L < P -> (P | T) -> P * ((T - 1 - L) / P + 1) = T.
Proof. intros HP HL [k ->]. replace (k * P - 1 - L) with (P - 1 - L + (k - 1) * P) by lia.
  rewrite Z.div_add, Z.div_small by lia. lia. Qed.

Lemma deinterleave_divisible data order w tx rx L : 0 < w -> (w | 32) -> NoDup order ->
  (Z.of_nat (length order) | nchunks data w) ->
  interleave data order w = Ok tx -> remains_of rx tx order -> last_received rx order L -> 1 <= L ->
  exists words,
    deinterleave rx order w =
      Ok (words, map (fun t => (chunk_word w t, chunk_bit w t))
                     (filter (fun t => negb (received rx (carrier order t))) (zrange 0 (nchunks data w)))) /\
    length words = S (length data) /\
    Forall (fun x => 0 <= x < 2 ^ 32) words /\
    nth (length data) words 0 = 0 /\
    (forall t, 0 <= t < nchunks data w ->
       chunk words w t = if received rx (carrier order t) then chunk data w t else 0).
Proof. intros Hw Hd Hn Hdiv E Hrem HL HL1.
  destruct (deinterleave_stream data order w tx rx L Hw Hd Hn E Hrem HL HL1) as (words & D1 & D2 & D3 & D4 & D5).
  destruct HL as (HLb & _). rewrite divisible_rows in * by (try assumption; lia).
  destruct (divisor_parts w Hw Hd) as (En & Hn' & _).
  assert (EwT : w * nchunks data w = 32 * Z.of_nat (length data)) by (unfold nchunks; nia).
  rewrite EwT in *. rewrite Z.mul_comm, Z.div_mul in D2 by lia.
  exists words. split; [exact D1|]. split; [lia|]. split; [exact D3|]. split; [|exact D4].
  apply nonneg_bits_eq. intros j Hj. rewrite Z.bits_0. destruct (Z.lt_ge_cases j 32) as [J|J].
  - specialize (D5 (32 * Z.of_nat (length data) + j) ltac:(lia)).
    replace ((32 * Z.of_nat (length data) + j) / 32) with (Z.of_nat (length data)) in D5 by (apply Z.div_unique with j; lia).
    replace ((32 * Z.of_nat (length data) + j) mod 32) with j in D5 by (apply Z.mod_unique with (Z.of_nat (length data)); lia).
    rewrite Nat2Z.id in D5. exact D5.
  - assert (Hx : word (nth (length data) words 0)) by (rewrite Forall_forall in D3; apply D3, nth_In; lia).
    refine (proj1 (bits_bound _ 32 _) Hx j _); lia. Qed.
