(** C165: losing more packets, or listing the losses in another order. *)
From Verif Require Import ListLemmas InterleaveSpec FlipModel FlipSpec FlipProofs SPModel PacketModel PacketSpec PredictProofs PacketProofs PacketProps.
From Coq Require Import ZifyBool ZifyNat.

(** *** Specification *)
(** The first listed packet of [lost'] stands no later in the order than that of [lost]. *)
Definition no_later (order lost lost' : list Z) : Prop :=
  exists s s', 0 <= s' <= s /\ s < Z.of_nat (length order) /\ hd_error lost = Some (carrier order s) /\ hd_error lost' = Some (carrier order s').
(** All packets carry equally many chunks. *)
Definition whole_rounds (order : list Z) (w words : Z) : Prop := (w * Z.of_nat (length order) | 32 * words).

(** *** Proof *)
Lemma carrier_round order s j : 0 <= s < Z.of_nat (length order) -> carrier order (Z.of_nat (length order) * j + s) = carrier order s.
Proof. intros H. unfold carrier. rewrite (Z.add_comm _ s), Z.mul_comm, Z_mod_plus_full. reflexivity. Qed.
Lemma carrier_inj order s t : NoDup order -> 0 <= s < Z.of_nat (length order) -> 0 <= t < Z.of_nat (length order) -> carrier order s = carrier order t -> s = t.
Proof. intros N Hs Ht E. unfold carrier in E. rewrite !Z.mod_small in E by assumption. apply (proj1 (NoDup_nth order (-1)) N) in E; lia. Qed.
Lemma order_place order p : In p order -> exists s, 0 <= s < Z.of_nat (length order) /\ p = carrier order s.
Proof. intros I. destruct (In_nth order p (-1) I) as (n & L & E). exists (Z.of_nat n). split; [lia|]. unfold carrier. rewrite Z.mod_small by lia. rewrite Nat2Z.id. symmetry. exact E. Qed.

Lemma announced_more order w words lost lost' t : 1 <= w -> NoDup order -> incl lost lost' -> incl lost' order -> no_later order lost lost' \/ whole_rounds order w words ->
  announced order w words lost t -> announced order w words lost' t.
Proof. intros Hw N I I' C (T0 & T1 & T2 & t0 & E & H & W). split; [exact T0|]. split; [exact T1|]. split; [apply I; exact T2|].
  assert (Hp : 0 < Z.of_nat (length order)). { destruct lost as [|p lost]; [discriminate H|]. assert (X : In p order) by (apply I', I; left; reflexivity). destruct order; [destruct X|cbn [length]; lia]. }
  set (n := Z.of_nat (length order)) in *. destruct C as [(s & s' & L & Ls & Hs & Hs')|(m & M)].
  - exists (n * (t / n) + s'). split; [rewrite Z.mul_comm, Z.div_add_l by lia; rewrite (Z.div_small s' n) by lia; lia|]. split; [unfold n; rewrite carrier_round by (fold n; lia); exact Hs'|].
    assert (X : t0 mod n = s). { pose proof (Z.mod_pos_bound t0 n Hp). apply (carrier_inj order); [exact N|exact H0|fold n; lia|]. rewrite H in Hs. injection Hs as Hs. unfold carrier at 1. fold n. rewrite Zmod_mod. exact Hs. }
    pose proof (Z.div_mod t0 n ltac:(lia)) as D. rewrite E, X in D. apply Z.le_lt_trans with (w * t0); [|exact W]. apply Z.mul_le_mono_nonneg_l; [lia|]. clear - D L. lia.
  - destruct lost' as [|p lost']; [destruct (I _ T2)|]. destruct (order_place order p (I' p (or_introl eq_refl))) as (s' & Ls & ->). fold n in Ls.
    exists (n * (t / n) + s'). split; [rewrite Z.mul_comm, Z.div_add_l by lia; rewrite (Z.div_small s' n) by lia; lia|]. split; [unfold n; rewrite carrier_round by (fold n; lia); reflexivity|].
    assert (M1 : 32 * words = m * (w * n)) by exact M. clear M. rename M1 into M. assert (Y : t < n * m). { apply Z.mul_lt_mono_pos_l with w; [lia|]. replace (w * (n * m)) with (32 * words) by (rewrite M; ring). exact T1. }
    assert (Y2 : t / n < m) by (apply Z.div_lt_upper_bound; lia). rewrite M. replace (m * (w * n)) with (w * (n * m)) by ring. apply Z.mul_lt_mono_pos_l; [lia|]. assert (n * (t / n) <= n * (m - 1)) by (apply Z.mul_le_mono_nonneg_l; lia). lia. Qed.
Lemma inside_more order w words lost lost' : 1 <= w -> lost <> [] -> incl lost lost' -> incl lost' order -> no_later order lost lost' \/ whole_rounds order w words -> NoDup order -> first_inside order w words lost -> first_inside order w words lost'.
Proof. intros Hw Ne I I' C N (t0 & T & H & W). assert (A : announced order w words lost t0).
  { split; [lia|]. split; [exact W|]. split; [destruct lost as [|p lost]; [discriminate H|]; injection H as <-; left; reflexivity|]. exists t0. split; [reflexivity|]. split; [exact H|exact W]. }
  apply (announced_more order w words lost lost') in A; try assumption. destruct A as (_ & _ & _ & t1 & E & H1 & W1). rewrite (Z.div_small t0) in E by lia. exists t1. split; [|split; assumption]. apply Z.div_small_iff in E; lia. Qed.

(** C165.  Missing: the first listed packet must not move backwards in the order, unless all packets carry equally many chunks. *)
Theorem C165_more_losses_partial : forall order w words lost lost' prog i a e adr,
  1 <= w <= 32 -> NoDup order -> lost <> [] -> incl lost lost' -> incl lost' order -> no_later order lost lost' \/ whole_rounds order w words ->
  good_program prog -> first_inside order w words lost -> nth_address prog i a -> dget prog a = Some [mkInst e adr] ->
  exists p p' l l', packet_corrupt (Z.of_nat (length order)) w words order lost prog = Ok p /\ packet_corrupt (Z.of_nat (length order)) w words order lost' prog = Ok p' /\
    dget p a = Some l /\ dget p' a = Some l' /\ incl l l'.
Proof. intros order w words lost lost' prog i a e adr Hw N Ne I I' C G Fi Hi Ha.
  assert (Ne' : lost' <> []) by (intros ->; destruct lost as [|x l]; [congruence|destruct (I x (or_introl eq_refl))]).
  assert (Il : incl lost order) by (intros x J; apply I', I, J).
  destruct (C19_candidates order w words lost prog i a e adr Hw N Il Ne G Fi Hi Ha) as (er & p & l & Ee & Ep & El & Ad & Hx & _).
  destruct (C19_candidates order w words lost' prog i a e adr Hw N I' Ne' G (inside_more order w words lost lost' ltac:(lia) Ne I I' C N Fi) Hi Ha) as (er' & p' & l' & Ee' & Ep' & El' & Ad' & Hx' & _).
  exists p, p', l, l'. repeat (split; [assumption|]).
  destruct (C17_predicted_bits_exact order w words lost ltac:(lia) N Il Ne) as (er1 & E1 & B1). rewrite Ee in E1. injection E1 as <-.
  destruct (C17_predicted_bits_exact order w words lost' ltac:(lia) N I' Ne') as (er2 & E2 & B2). rewrite Ee' in E2. injection E2 as <-.
  intros c J. assert (X : In (i_enc c) (map i_enc l')).
  { apply Hx'. assert (Y : In (i_enc c) (map i_enc l)) by (apply in_map; exact J). apply Hx in Y. intros b Hb Nb. apply Y; [exact Hb|]. intros [L Pb]. apply Nb. split; [exact L|]. apply B2. apply B1 in Pb. destruct Pb as (t & At & Rt). exists t. split; [|exact Rt]. apply (announced_more order w words lost lost'); [lia|assumption..]. }
  apply in_map_iff in X. destruct X as (c' & Ec & J'). rewrite Forall_forall in Ad, Ad'. replace c with c'; [exact J'|]. specialize (Ad c J). specialize (Ad' c' J'). destruct c as [x1 x2], c' as [y1 y2]. cbn in *. congruence. Qed.
Print Assumptions C165_more_losses_partial.
(** Three words in four packets of half words: with packets 0 and 1 lost the last word has candidates, with packet 3 lost as well and listed first it has none but itself. *)
(** The order in which the lost packets are listed. *)
Theorem C165_same_losses : forall order w words lost lost' prog i a e adr,
  1 <= w <= 32 -> NoDup order -> lost <> [] -> (forall q, In q lost <-> In q lost') -> incl lost order -> whole_rounds order w words ->
  good_program prog -> first_inside order w words lost -> nth_address prog i a -> dget prog a = Some [mkInst e adr] ->
  exists p p' l l', packet_corrupt (Z.of_nat (length order)) w words order lost prog = Ok p /\ packet_corrupt (Z.of_nat (length order)) w words order lost' prog = Ok p' /\
    dget p a = Some l /\ dget p' a = Some l' /\ forall c, In c l <-> In c l'.
Proof. intros order w words lost lost' prog i a e adr Hw N Ne S I W G Fi Hi Ha. assert (I1 : incl lost lost') by (intros q; apply S). assert (I2 : incl lost' lost) by (intros q; apply S). assert (I' : incl lost' order) by (intros q J; apply I, I2, J).
  assert (Ne' : lost' <> []) by (intros ->; destruct lost as [|x l]; [congruence|destruct (I1 x (or_introl eq_refl))]).
  pose proof (inside_more order w words lost lost' ltac:(lia) Ne I1 I' (or_intror W) N Fi) as Fi'.
  destruct (C165_more_losses_partial order w words lost lost' prog i a e adr Hw N Ne I1 I' (or_intror W) G Fi Hi Ha) as (p & p' & l & l' & E1 & E2 & E3 & E4 & In1).
  destruct (C165_more_losses_partial order w words lost' lost prog i a e adr Hw N Ne' I2 I (or_intror W) G Fi' Hi Ha) as (q' & q & m' & m & D1 & D2 & D3 & D4 & In2).
  rewrite E2 in D1. injection D1 as <-. rewrite E1 in D2. injection D2 as <-. rewrite E4 in D3. injection D3 as <-. rewrite E3 in D4. injection D4 as <-. exists p, p', l, l'. repeat (split; [assumption|]). intros c. split; [apply In1|apply In2]. Qed.
Print Assumptions C165_same_losses.
(** Three words in twenty packets of 4-bit chunks.  Packet 0 carries two chunks, packet 19 one; when packet 19 is lost as well and listed first, the second chunk of packet 0 is not reported. *)
Theorem C165_more_losses_refuted : exists order w words lost lost' prog p p' a l l',
  1 <= w <= 32 /\ NoDup order /\ lost <> [] /\ incl lost lost' /\ incl lost' order /\ good_program prog /\ first_inside order w words lost /\ first_inside order w words lost' /\
  packet_corrupt (Z.of_nat (length order)) w words order lost prog = Ok p /\ packet_corrupt (Z.of_nat (length order)) w words order lost' prog = Ok p' /\
  dget p a = Some l /\ dget p' a = Some l' /\ ~ incl l l'.
Proof. exists (zrange 0 20), 4, 3, [0], [19; 0], [(0, [mkInst 0 0]); (4, [mkInst 0 4]); (8, [mkInst 0 8])]. eexists _, _, 8, _, _.
  split; [lia|]. split; [apply zrange_nodup|]. split; [discriminate|]. split; [intros x [<-|[]]; right; left; reflexivity|]. split; [intros x Hx; apply in_zrange; cbn in Hx; lia|].
  split; [split; [repeat constructor; cbn; intuition lia|repeat constructor; cbn; lia]|]. split; [exists 0; split; [vm_compute; intuition congruence|]; split; [reflexivity|lia]|]. split; [exists 19; split; [vm_compute; intuition congruence|]; split; [reflexivity|lia]|].
  split; [vm_compute; reflexivity|]. split; [vm_compute; reflexivity|]. split; [reflexivity|]. split; [reflexivity|]. intros H. specialize (H (mkInst 65536 8)). vm_compute in H. intuition discriminate. Qed.
Print Assumptions C165_more_losses_refuted.
Example C165_example : let order := zrange 0 16 in let prog := [(0, [mkInst 5 0]); (4, [mkInst 6 4])] in NoDup order /\ incl [3; 9] [9; 3; 4] /\ incl [9; 3; 4] order /\ whole_rounds order 4 2 /\ ~ no_later order [3; 9] [9; 3; 4] /\ good_program prog /\ first_inside order 4 2 [3; 9] /\ nth_address prog 0 0 /\
  rmap (map (fun kv => length (snd kv))) (packet_corrupt 16 4 2 order [3; 9] prog) = Ok [16%nat; 16%nat] /\ rmap (map (fun kv => length (snd kv))) (packet_corrupt 16 4 2 order [9; 3; 4] prog) = Ok [256%nat; 16%nat].
Proof. cbv zeta. split; [apply zrange_nodup|]. split; [intros x Hx; cbn in Hx |- *; lia|]. split; [intros x Hx; apply in_zrange; cbn in Hx; lia|]. split; [exists 1; vm_compute; reflexivity|]. split.
  { intros (s & s' & L & Ls & H1 & H2). injection H1 as H1. injection H2 as H2. change 3 with (carrier (zrange 0 16) 3) in H1. change 9 with (carrier (zrange 0 16) 9) in H2. apply carrier_inj in H1; [|apply zrange_nodup|vm_compute; intuition congruence|assert (Z.of_nat (length (zrange 0 16)) = 16) by reflexivity; lia]. apply carrier_inj in H2; [|apply zrange_nodup|vm_compute; intuition congruence|assert (Z.of_nat (length (zrange 0 16)) = 16) by reflexivity; lia]. lia. }
  split; [split; [repeat constructor; cbn; intuition lia|repeat constructor; cbn; lia]|]. split; [exists 3; split; [vm_compute; intuition congruence|]; split; [reflexivity|lia]|]. split; [split; [left; reflexivity|reflexivity]|]. split; vm_compute; reflexivity. Qed.
