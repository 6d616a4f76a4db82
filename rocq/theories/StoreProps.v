(** C108 - C109: whole transmissions (interleave, lose packets, deinterleave,
    corrupt; store_packets.py; the packet loss of recover_program.py). *)
From Verif Require Import ListLemmas BitsSpec BitsProofs QueueModel InterleaveModel InterleaveSpec InterleaveProofs DeinterleaveProofs
  FlipModel FlipSpec SPModel SPProofs PacketModel PacketSpec PredictProofs PacketProofs PacketProps StoreSpec.
From Coq Require Import ZifyBool ZifyNat Permutation.

(** ** Received words against candidates *)
Lemma lost_dec order w words lost x : lost_bit order w words lost x \/ ~ lost_bit order w words lost x.
Proof. unfold lost_bit. destruct (in_dec Z.eq_dec (carrier order (x / w)) lost); [|tauto]. destruct (Z.lt_ge_cases x 0); [right; lia|].
  destruct (Z.lt_ge_cases x (32 * words)); [left|right]; intuition lia. Qed.

(** A received word is the original one without its lost bits. *)
Lemma received_word data order w words {A} (rx : dict (option A)) lost i b : 0 < w -> (w | 32) -> order <> [] ->
  Forall (fun x => 0 <= x < 2 ^ 32) data -> Forall (fun x => 0 <= x < 2 ^ 32) words -> lost_exactly rx order lost ->
  (forall t, 0 <= t < nchunks data w -> chunk words w t = if received rx (carrier order t) then chunk data w t else 0) ->
  0 <= i < Z.of_nat (length data) -> 0 <= b ->
  (Z.testbit (nth (Z.to_nat i) words 0) b = true <->
   Z.testbit (nth (Z.to_nat i) data 0) b = true /\ ~ lost_bit order w (Z.of_nat (length data)) lost (32 * i + b)).
Proof. intros Hw Hd Ho Fd Fw Lo Hc Hi Hb. destruct (divisor_parts w Hw Hd) as (Hn & Hn0 & Hw32).
  assert (Big : forall l, Forall (fun x => 0 <= x < 2 ^ 32) l -> 32 <= b -> Z.testbit (nth (Z.to_nat i) l 0) b = false).
  { intros l F B. apply (proj1 (bits_bound (nth (Z.to_nat i) l 0) 32 ltac:(lia))); [|exact B].
    destruct (nth_in_or_default (Z.to_nat i) l 0) as [I| ->]; [rewrite Forall_forall in F; apply F, I|lia]. }
  destruct (Z.lt_ge_cases b 32) as [B|B].
  2:{ rewrite !Big by assumption. split; [discriminate|intros [? _]; discriminate]. }
  set (x := 32 * i + b). set (t := x / w).
  assert (Ht : 0 <= t < nchunks data w).
  { unfold nchunks, t. split; [apply Z.div_pos; lia|]. apply Z.div_lt_upper_bound; [lia|]. rewrite Z.mul_assoc, (Z.mul_comm w), <- Z.mul_assoc, Hn. lia. }
  assert (Ex : x = w * t + x mod w) by (apply Z.div_mod; lia). pose proof (Z.mod_pos_bound x w Hw) as Mx.
  assert (Ewt : w * t = 32 * i + w * (b / w)).
  { assert (x = w * ((32 / w) * i + b / w) + b mod w). { pose proof (Z.div_mod b w ltac:(lia)). unfold x. rewrite Z.mul_add_distr_l, Z.mul_assoc, Hn. lia. }
    assert (Q : (32 / w) * i + b / w = t) by (apply Z.div_unique with (b mod w); [left; apply Z.mod_pos_bound; lia|exact H]).
    rewrite <- Q, Z.mul_add_distr_l, Z.mul_assoc, Hn. reflexivity. }
  assert (Bq : 0 <= w * (b / w) <= b) by (pose proof (Z.div_mod b w ltac:(lia)); pose proof (Z.mod_pos_bound b w Hw); assert (0 <= b / w) by (apply Z.div_pos; lia); split; [apply Z.mul_nonneg_nonneg; lia|lia]).
  assert (Cw : chunk_word w t = i) by (unfold chunk_word; rewrite Ewt; symmetry; apply Z.div_unique with (w * (b / w)); lia).
  assert (Cb : chunk_bit w t = w * (b / w)) by (unfold chunk_bit; rewrite Ewt; symmetry; apply Z.mod_unique with i; lia).
  assert (Bit : forall l, Z.testbit (chunk l w t) (x mod w) = Z.testbit (nth (Z.to_nat i) l 0) b).
  { intros l. unfold chunk. rewrite Cw, Cb, field_bit by lia. replace (x mod w <? w) with true by lia. cbn [andb]. f_equal. lia. }
  rewrite <- (Bit words), <- (Bit data), (Hc t Ht).
  pose proof (carrier_in order t Ho) as Hin. specialize (Lo _ Hin). unfold lost_bit. fold t.
  destruct (received rx (carrier order t)).
  - split; [intros H; split; [exact H|]; intros [_ C]; apply Lo in C; discriminate|tauto].
  - rewrite Z.bits_0. split; [discriminate|]. intros [_ H]. exfalso. apply H. split; [unfold x; lia|]. apply Lo. reflexivity. Qed.

(** What the packet corruptor offers for one word when whole rounds were sent. *)
Lemma first_inside_whole data order w lost : 0 < w -> (w | 32) -> data <> [] -> incl lost order -> lost <> [] ->
  (Z.of_nat (length order) | nchunks data w) -> first_inside order w (Z.of_nat (length data)) lost.
Proof. intros Hw Hd Hne I Hl (m & Hm). destruct (divisor_parts w Hw Hd) as (Hn & Hn0 & _). destruct lost as [|p lost]; [congruence|].
  assert (Hp : In p order) by (apply I; left; reflexivity). apply zindex_in in Hp. destruct Hp as (k & Ek). apply zindex_spec in Ek. destruct Ek as [Bk Ek].
  exists k. split; [exact Bk|]. split.
  - cbn [hd_error]. unfold carrier. rewrite Z.mod_small by exact Bk. congruence.
  - assert (0 < Z.of_nat (length data)) by (destruct data; [congruence|cbn [length]; lia]).
    unfold nchunks in Hm. assert (0 < m) by nia. assert (w * nchunks data w = 32 * Z.of_nat (length data)) by (unfold nchunks; nia).
    unfold nchunks in *. nia. Qed.
Lemma rank_bound (prog : program) i a : NoDup (dkeys prog) -> nth_address prog i a -> 0 <= i < Z.of_nat (length prog).
Proof. intros N Hn. pose proof (sorted_addresses prog i a N Hn) as H. destruct Hn as [_ <-].
  assert (L : (Z.to_nat (Z.of_nat (length (filter (fun b => (b <? a)%Z) (dkeys prog)))) < length (sort_by (fun a : Z => a) (dkeys prog)))%nat) by (apply nth_error_Some; congruence).
  rewrite (Permutation_length (sort_by_perm _ _)) in L. unfold dkeys in *. rewrite map_length in L. lia. Qed.

(** C108: the word that really arrives (after deinterleaving what is left of the
    packets) is one of the candidates that PacketCorruptor produces for the same
    loss.  Exactly false for words whose top bit is set and lost. *)
Theorem C108_received_is_candidate_partial : forall data order w tx rx lost L prog,
  0 < w -> (w | 32) -> NoDup order -> Forall (fun x => 0 <= x < 2 ^ 32) data -> data <> [] ->
  (Z.of_nat (length order) | nchunks data w) -> incl lost order -> lost <> [] ->
  interleave data order w = Ok tx -> remains_of rx tx order -> last_received rx order L -> 1 <= L -> lost_exactly rx order lost ->
  good_program prog -> program_of prog data ->
  exists words errors prog', deinterleave rx order w = Ok (words, errors) /\
    packet_corrupt (Z.of_nat (length order)) w (Z.of_nat (length data)) order lost prog = Ok prog' /\
    forall i a, nth_address prog i a -> exists l, dget prog' a = Some l /\
      (In (nth (Z.to_nat i) words 0) (map i_enc l) <->
       ~ (Z.testbit (nth (Z.to_nat i) data 0) 31 = true /\ lost_bit order w (Z.of_nat (length data)) lost (32 * i + 31))).
Proof. intros data order w tx rx lost L prog Hw Hd N Fd Hne Hdiv I Hl Ei Hr Hlast HL Lo G [Lp Hp].
  destruct (divisor_parts w Hw Hd) as (_ & _ & Hw32).
  destruct (deinterleave_divisible data order w tx rx L Hw Hd N Hdiv Ei Hr Hlast HL) as (words & Ed & _ & Fw & _ & Hc).
  pose proof (first_inside_whole data order w lost Hw Hd Hne I Hl Hdiv) as Hf.
  assert (Ho : order <> []) by (destruct lost as [|p ?]; [congruence|]; intros ->; apply (I p); left; reflexivity).
  destruct (packet_main order w (Z.of_nat (length data)) lost prog ltac:(lia) N I Hl G Hf) as (errs & prog' & _ & _ & _ & Ec & _ & _).
  eexists words, _, prog'. split; [exact Ed|]. split; [exact Ec|]. intros i a Hi. destruct (Hp i a Hi) as (adr & Ha).
  pose proof (rank_bound prog i a (proj1 G) Hi) as Bi. rewrite Lp in Bi.
  destruct (C19_candidates_of_losses order w (Z.of_nat (length data)) lost prog i a _ adr ltac:(lia) Hd Hdiv N I Hl G Hf Hi Ha) as (prog2 & l & Ec2 & El & Hx).
  assert (prog2 = prog') by congruence. subst prog2. exists l. split; [exact El|]. rewrite Hx.
  pose proof (fun b => received_word data order w words rx lost i b Hw Hd Ho Fd Fw Lo Hc Bi) as RW.
  set (e := nth (Z.to_nat i) data 0) in *. set (v := nth (Z.to_nat i) words 0) in *. set (LB := lost_bit order w (Z.of_nat (length data)) lost) in *.
  split.
  - intros S [E31 L31]. assert (X : Z.testbit v 31 = Z.testbit e 31) by (apply S; [lia|intros [[? _]|[? _]]; lia]).
    rewrite E31 in X. apply RW in X; [|lia]. tauto.
  - intros Hno b Hb HB. destruct (lost_dec order w (Z.of_nat (length data)) lost (32 * i + b)) as [D|D]; fold LB in D.
    + assert (b = 31 \/ 32 <= b) as [->|B] by (destruct (Z.lt_ge_cases b 31); [exfalso; apply HB; left; split; [lia|exact D]|lia]).
      * destruct (Z.testbit e 31) eqn:E31; [exfalso; apply Hno; auto|]. destruct (Z.testbit v 31) eqn:V; [|reflexivity]. apply RW in V; [|lia]. destruct V; congruence.
      * assert (E0 : Z.testbit e b = false).
        { apply (proj1 (bits_bound e 32 ltac:(lia))); [|exact B]. rewrite Forall_forall in Fd. apply Fd. apply nth_In. lia. }
        destruct (Z.testbit v b) eqn:V; [apply RW in V; [destruct V; congruence|lia]|congruence].
    + destruct (Z.testbit v b) eqn:V; [apply RW in V; [destruct V; congruence|lia]|]. destruct (Z.testbit e b) eqn:E; [|reflexivity].
      assert (Z.testbit v b = true) by (apply RW; [lia|auto]). congruence. Qed.
Print Assumptions C108_received_is_candidate_partial.

Lemma all_received_get tx p q : dget (all_received tx) p = Some (Some q) -> dget tx p = Some q.
Proof. unfold all_received. induction tx as [|[k v] tx IH]; [discriminate|]. cbn [map fst snd dget]. destruct (_ =? _); [intros H; injection H as ->; reflexivity|exact IH]. Qed.
(** The word 0x80000000 in sixteen packets of 2-bit chunks; packet 15 is lost and
    0 arrives, which is not offered. *)
Theorem C108_received_is_candidate_refuted : exists data order w tx rx lost prog words errors prog' a l,
  (w | 32) /\ NoDup order /\ Forall (fun x => 0 <= x < 2 ^ 32) data /\ interleave data order w = Ok tx /\ remains_of rx tx order /\ last_received rx order 14 /\
  lost_exactly rx order lost /\ good_program prog /\ program_of prog data /\ deinterleave rx order w = Ok (words, errors) /\
  packet_corrupt (Z.of_nat (length order)) w (Z.of_nat (length data)) order lost prog = Ok prog' /\
  nth_address prog 0 a /\ dget prog' a = Some l /\ ~ In (nth 0 words 0) (map i_enc l).
Proof. pose (tx := match interleave [0x80000000] (zrange 0 16) 2 with Ok tx => tx | Err _ => [] end).
  exists [0x80000000], (zrange 0 16), 2, tx, (dset (all_received tx) 15 None), [15], [(0, [mkInst 0x80000000 0])].
  exists [0; 0], [(0, 30)], [(0, [mkInst 0x80000000 0; mkInst 0xC0000000 0])], 0, [mkInst 0x80000000 0; mkInst 0xC0000000 0].
  split; [exists 16; lia|]. split; [apply zrange_nodup|]. split; [repeat constructor; lia|]. split; [vm_compute; reflexivity|].
  split. { intros p q Hp Hq. apply in_zrange in Hp. revert Hq. assert (C : forallb (fun p => match dget (dset (all_received tx) 15 None) p, dget tx p with Some (Some q), Some q' => true | Some None, _ => true | _, _ => false end) (zrange 0 16) = true) by (vm_compute; reflexivity).
    destruct (Z.eq_dec p 15) as [->|Np]; [intros Hq; vm_compute in Hq; discriminate|]. rewrite dget_dset. replace (p =? 15) with false by lia.
    intros H. apply all_received_get in H. exact H. }
  split. { split; [rewrite zrange_length; lia|]. split; [vm_compute; reflexivity|]. intros i Hi. assert (i = 15) as -> by (rewrite zrange_length in Hi; lia). vm_compute. reflexivity. }
  split. { intros p Hp. apply in_zrange in Hp. assert (C : forallb (fun p => Bool.eqb (received (dset (all_received tx) 15 None) p) (negb (p =? 15))) (zrange 0 16) = true) by (vm_compute; reflexivity).
    rewrite forallb_forall in C. specialize (C p ltac:(apply in_zrange; lia)). apply Bool.eqb_prop in C. rewrite C. cbn [In]. destruct (Z.eqb_spec p 15); cbn [negb]; intuition congruence. }
  split. { split; [repeat constructor; cbn; intuition lia|repeat constructor; cbn; lia]. }
  split. { split; [reflexivity|]. intros i a [Ha <-]. cbn [dkeys map fst In] in Ha. destruct Ha as [<-|[]]; vm_compute; eauto. }
  split; [vm_compute; reflexivity|]. split; [vm_compute; reflexivity|]. split; [split; [left; reflexivity|reflexivity]|]. split; [reflexivity|].
  cbn [nth map i_enc In]. lia. Qed.
Print Assumptions C108_received_is_candidate_refuted.
(** A case with a loss where every hypothesis holds: the word 0x80000005, packet 1
    (bits 2, 3) lost; 0x80000001 arrives and is offered. *)
Example C108_example :
  let data := [0x80000005] in let order := zrange 0 16 in
  (Z.of_nat (length order) | nchunks data 2) /\
  rmap (fun tx => rmap fst (deinterleave (dset (all_received tx) 1 None) order 2)) (interleave data order 2) = Ok (Ok [0x80000001; 0]) /\
  rmap (fun p => map (fun kv => map i_enc (snd kv)) p) (packet_corrupt 16 2 1 order [1] [(0, [mkInst 0x80000005 0])]) =
    Ok [[0x80000001; 0x80000005; 0x80000009; 0x8000000d]].
Proof. split; [exists 1; reflexivity|]. split; vm_compute; reflexivity. Qed.

(** C109: the candidates of a word are exactly the words that agree with it on
    every bit that was received - true exactly for the words whose top bit was
    received and that do not follow a lost top bit (unless bit 0 was lost too). *)
Theorem C109_exact_candidates_partial : forall order w words lost prog i a e adr,
  1 <= w -> (w | 32) -> (Z.of_nat (length order) | words * (32 / w)) ->
  NoDup order -> incl lost order -> lost <> [] -> good_program prog -> first_inside order w words lost ->
  nth_address prog i a -> dget prog a = Some [mkInst e adr] ->
  exists prog' l, packet_corrupt (Z.of_nat (length order)) w words order lost prog = Ok prog' /\ dget prog' a = Some l /\
    ((forall x, In x (map i_enc l) <-> same_outside (fun b => b < 32 /\ lost_bit order w words lost (32 * i + b)) e x) <->
     ~ lost_bit order w words lost (32 * i + 31) /\ (lost_bit order w words lost (32 * i - 1) -> lost_bit order w words lost (32 * i))).
Proof. intros order w words lost prog i a e adr Hw Hd HP N I Hl G Hf Hi Ha.
  destruct (C19_candidates_of_losses order w words lost prog i a e adr Hw Hd HP N I Hl G Hf Hi Ha) as (prog' & l & Ec & El & Hx).
  exists prog', l. split; [exact Ec|]. split; [exact El|]. set (LB := lost_bit order w words lost) in *.
  assert (Flip : forall k i, 0 <= k -> 0 <= i -> Z.testbit (Z.lxor e (2 ^ k)) i = xorb (Z.testbit e i) (i =? k)).
  { intros k j Hk Hj. rewrite Z.lxor_spec. f_equal. rewrite Z.pow2_bits_eqb by lia. rewrite Z.eqb_sym. reflexivity. }
  split.
  - intros H. split.
    + intros L31. assert (S : same_outside (fun b => b < 32 /\ LB (32 * i + b)) e (Z.lxor e (2 ^ 31))).
      { intros b Hb Nb. rewrite Flip by lia. destruct (Z.eqb_spec b 31) as [->|Ne]; [exfalso; apply Nb; split; [lia|exact L31]|apply xorb_false_r]. }
      apply H, Hx in S. specialize (S 31 ltac:(lia) ltac:(intros [[? _]|[? _]]; lia)). rewrite Flip in S by lia. change (31 =? 31) with true in S. destruct (Z.testbit e 31); discriminate.
    + intros Lp. destruct (lost_dec order w words lost (32 * i)) as [D|D]; [exact D|]. exfalso. fold LB in D.
      assert (S : same_outside (fun b => (b < 31 /\ LB (32 * i + b)) \/ (b = 0 /\ LB (32 * i - 1))) e (Z.lxor e (2 ^ 0))).
      { intros b Hb Nb. rewrite Flip by lia. destruct (Z.eqb_spec b 0) as [->|Ne]; [exfalso; apply Nb; right; auto|apply xorb_false_r]. }
      apply Hx, H in S. specialize (S 0 ltac:(lia)). rewrite Flip in S by lia. rewrite Z.add_0_r in S. specialize (S ltac:(intros [_ ?]; contradiction)).
      change (0 =? 0) with true in S. destruct (Z.testbit e 0); discriminate.
  - intros [N31 Lp] x. rewrite Hx. split; intros S b Hb Nb; apply S; try exact Hb; intros C; apply Nb.
    + destruct C as [[B C]|[-> C]]; [split; [lia|exact C]|split; [lia|rewrite Z.add_0_r; auto]].
    + destruct C as [B C]. left. split; [|exact C]. assert (b <> 31) by (intros ->; contradiction). lia. Qed.
Print Assumptions C109_exact_candidates_partial.

(** Words 0 and 0 in 32 packets of 2-bit chunks; packet 15 (bits 30 and 31 of the
    first word) is lost: the first word misses candidates, the second, received
    completely, gets a wrong one. *)
Theorem C109_exact_candidates_refuted : exists order w words lost prog prog',
  1 <= w /\ (w | 32) /\ (Z.of_nat (length order) | words * (32 / w)) /\ NoDup order /\ incl lost order /\ good_program prog /\ program_of prog [0; 0] /\
  packet_corrupt (Z.of_nat (length order)) w words order lost prog = Ok prog' /\
  (exists l x, dget prog' 0 = Some l /\ same_outside (fun b => b < 32 /\ lost_bit order w words lost (32 * 0 + b)) 0 x /\ ~ In x (map i_enc l)) /\
  (exists l x, dget prog' 4 = Some l /\ In x (map i_enc l) /\ ~ same_outside (fun b => b < 32 /\ lost_bit order w words lost (32 * 1 + b)) 0 x).
Proof. exists (zrange 0 32), 2, 2, [15], [(0, [mkInst 0 0]); (4, [mkInst 0 4])], [(0, [mkInst 0 0; mkInst 0x40000000 0]); (4, [mkInst 0 4; mkInst 1 4])].
  split; [lia|]. split; [exists 16; lia|]. split; [exists 1; reflexivity|]. split; [apply zrange_nodup|].
  split; [intros p [<-|[]]; apply in_zrange; lia|]. split; [split; [repeat constructor; cbn; intuition lia|repeat constructor; cbn; lia]|].
  split. { split; [reflexivity|]. intros i a [Ha <-]. cbn [dkeys map fst In] in Ha. destruct Ha as [<-|[<-|[]]]; vm_compute; eauto. }
  split; [vm_compute; reflexivity|]. split.
  - exists [mkInst 0 0; mkInst 0x40000000 0], (2 ^ 31). split; [reflexivity|]. split; [|cbn [map i_enc In]; lia].
    intros b Hb Nb. rewrite Z.bits_0, Z.pow2_bits_eqb by lia. destruct (Z.eqb_spec 31 b) as [<-|?]; [|reflexivity]. exfalso. apply Nb. split; [lia|]. split; [lia|]. vm_compute. auto.
  - exists [mkInst 0 4; mkInst 1 4], 1. split; [reflexivity|]. split; [cbn; auto|]. intros S. specialize (S 0 ltac:(lia)).
    assert (X : Z.testbit 1 0 = Z.testbit 0 0). { apply S. intros (_ & _ & C). vm_compute in C. destruct C; [discriminate|contradiction]. } discriminate. Qed.
Print Assumptions C109_exact_candidates_refuted.
Example C109_example : (* a word that satisfies the condition: packet 1 of 16 lost *)
  ~ lost_bit (zrange 0 16) 2 1 [1] (32 * 0 + 31) /\ ~ lost_bit (zrange 0 16) 2 1 [1] (32 * 0 - 1) /\ lost_bit (zrange 0 16) 2 1 [1] (32 * 0 + 2).
Proof. split; [|split]; [intros [_ C]; vm_compute in C; destruct C; [discriminate|contradiction]|intros [? _]; lia|split; [lia|vm_compute; auto]]. Qed.
