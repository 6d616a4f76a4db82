(** Property theorem C157 (how many candidates a burst leaves at an address). *)
From Verif Require Import ListLemmas SPModel SPProofs BitsSpec QueueModel InterleaveModel InterleaveSpec InterleaveProofs
  FlipModel FlipSpec FlipProofs PacketModel PacketSpec PredictProofs PacketProofs BurstProofs BurstProps.
From Coq Require Import ZifyBool ZifyNat Permutation Sorted.

Lemma two_at_most {A} (f : A -> Z) (a b : A) l : (forall x, 0 <= f x) -> NoDup l -> incl l [a; b] ->
  fold_right Z.add 0 (map f l) <= f a + f b.
Proof. intros P N I. pose proof (P a). pose proof (P b). destruct l as [|x [|y [|z l]]]; cbn [map fold_right]; try lia.
  - destruct (I x) as [<-|[<-|[]]]; [left; reflexivity| |]; lia.
  - assert (x <> y) by (inversion N; subst; intros ->; apply H3; left; reflexivity).
    destruct (I x) as [<-|[<-|[]]]; [left; reflexivity| |]; (destruct (I y) as [<-|[<-|[]]]; [right; left; reflexivity| |]); try congruence; lia.
  - exfalso. pose proof (NoDup_incl_length N I). cbn in *. lia. Qed.

Definition entry_width (w : Z) (e : error) : Z := Z.max 0 (snd (error_range w e) - fst (error_range w e)).

Lemma tuple_bits_sum w es : Z.of_nat (length (tuple_bits (map (error_range w) es))) = fold_right Z.add 0 (map (entry_width w) es).
Proof. unfold tuple_bits. induction es as [|e es IH]; [reflexivity|]. cbn [map flat_map fold_right].
  rewrite app_length, Nat2Z.inj_add, IH, zrange_length. unfold entry_width at 2. lia. Qed.

(** C157: the corruptor's candidates after losing packets of one burst of at
    most [2 * 4^(m-k)] consecutive packets: at most [2^(w+1)] at every address
    (repetitions counted), the true instruction among them. *)
Theorem C157_candidates : forall m k q w words order lost prog i a e adr first L,
  0 <= k <= m -> 1 <= q <= 3 -> w * 2 ^ k = 32 -> build_2d_interleave_sp (q * 4 ^ m) = Ok order ->
  lost <> [] -> incl lost order -> (forall p, In p lost -> first <= p < first + L) -> L <= 2 * 4 ^ (m - k) ->
  good_program prog -> first_inside order w words lost ->
  nth_address prog i a -> dget prog a = Some [mkInst e adr] ->
  exists prog' l, packet_corrupt (q * 4 ^ m) w words order lost prog = Ok prog' /\ dget prog' a = Some l /\
    In (mkInst e adr) l /\ Z.of_nat (length l) <= 2 ^ (w + 1).
Proof. intros m k q w words order lost prog i a e adr first L Hk Hq Hw B Hl I Hb HL G Hf Hi Ha.
  pose proof (pow2_pos' k ltac:(lia)) as P2k. pose proof (pow4_pos (m - k) ltac:(lia)) as PB.
  assert (Hw32 : 1 <= w <= 32) by nia.
  destruct (order_facts m q order ltac:(lia) Hq B) as [Nd Ln].
  destruct (packet_main order w words lost prog Hw32 Nd I Hl G Hf) as (errors & prog' & _ & Ne & Ie & Ec & _ & sorted & Pm & Ed).
  rewrite Ln in Ec. exists prog'. eexists. split; [exact Ec|]. split; [apply (Ed i a _ Hi Ha)|].
  assert (V : forall er, In er errors -> valid_range (error_range w er)).
  { intros er He. apply Ie in He. destruct He as (t & At & He). apply (entries_valid w t er Hw32); [apply At|exact He]. }
  assert (FV : Forall valid_range (ranges_of w sorted i)).
  { apply Forall_forall. intros t Ht. unfold ranges_of in Ht. apply in_map_iff in Ht. destruct Ht as (er & <- & He).
    apply filter_In in He. destruct He as [He _]. apply V, (Permutation_in _ Pm He). }
  split.
  { apply (Permutation_in _ (Permutation_sym (sort_by_perm i_enc _))).
    assert (X : In e (map i_enc (apply_ranges (ranges_of w sorted i) [mkInst e adr]))).
    { apply apply_ranges_in; [exact FV|]. exists (mkInst e adr). split; [left; reflexivity|apply same_outside_refl]. }
    apply in_map_iff in X. destruct X as ([e' adr'] & Ee & Hin). cbn [i_enc] in Ee. subst e'.
    pose proof (apply_ranges_addr _ _ _ Hin) as Ea. cbn [i_addr] in Ea. subst adr'. exact Hin. }
  rewrite (Permutation_length (sort_by_perm i_enc _)).
  assert (Len : Z.of_nat (length (apply_ranges (ranges_of w sorted i) [mkInst e adr])) = 2 ^ Z.of_nat (length (tuple_bits (ranges_of w sorted i)))).
  { unfold apply_ranges. destruct (ranges_of w sorted i) as [|t ts] eqn:Er; [reflexivity|]. rewrite <- Er in *.
    unfold spread. cbn [flat_map]. rewrite app_nil_r, map_length, allflips_length. cbn [length i_enc]. rewrite Nat.mul_1_l.
    apply Nat2Z.inj_pow. }
  rewrite Len. apply Z.pow_le_mono_r; [lia|]. unfold ranges_of. rewrite tuple_bits_sum.
  set (F := filter (fun e => e_word e =? i) sorted).
  assert (NF : NoDup F) by (apply NoDup_filter; apply (Permutation_NoDup (Permutation_sym Pm) Ne)).
  (* the entries of one word *)
  set (spill := (i, 0, Some 1) : error).
  assert (Own : forall er, In er F -> er = spill \/ exists t, chunk_word w t = i /\ In (carrier order t) lost /\ hd_error (entries w (w * t)) = Some er).
  { intros er He. unfold F in He. apply filter_In in He. destruct He as [He Ew]. apply Z.eqb_eq in Ew.
    apply (Permutation_in _ Pm), Ie in He. destruct He as (t & (T0 & T1 & T2 & _) & He). unfold entries in He |- *.
    destruct ((w * t) mod 32 + w >=? 32) eqn:En; cbn [In] in He.
    - destruct He as [<-|[<-|[]]].
      + right. exists t. rewrite En. split; [exact Ew|]. split; [exact T2|reflexivity].
      + left. unfold spill, e_word in *. cbn [fst] in Ew. rewrite Ew.
        assert (Em : (w * t) mod 32 = 32 - w).
        { assert (Dv : (w | (w * t) mod 32)).
          { pose proof (Z.div_mod (w * t) 32 ltac:(lia)) as DM. exists (t - 2 ^ k * (w * t / 32)). nia. }
          pose proof (Z.mod_pos_bound (w * t) 32 ltac:(lia)) as MB. destruct Dv as [c Dc]. rewrite Dc in *. clear - MB En Hw Hw32 P2k.
          assert (c < 2 ^ k) by nia. assert (2 ^ k <= c + 1) by (assert (w * 2 ^ k <= w * (c + 1)) by lia; nia).
          assert (c = 2 ^ k - 1) by lia. subst c. lia. }
        rewrite Em. do 2 f_equal. lia.
    - destruct He as [<-|[]]. right. exists t. rewrite En. split; [exact Ew|]. split; [exact T2|reflexivity]. }
  assert (Uniq : forall t t', chunk_word w t = i -> In (carrier order t) lost -> chunk_word w t' = i -> In (carrier order t') lost -> t = t').
  { intros t t' H1 H2 H3 H4. destruct (Z.eq_dec t t') as [|Ne']; [assumption|exfalso].
    destruct (C156_apart m k q w order t t' Hk Hq Hw B ltac:(congruence) Ne') as [N1 [c Dc]].
    pose proof (Hb _ H2). pose proof (Hb _ H4). assert (c <> 0) by (intros ->; lia). nia. }
  assert (W0 : forall x, 0 <= entry_width w x) by (intros; unfold entry_width; lia).
  assert (Ws : entry_width w spill = 1) by reflexivity.
  assert (Cover : exists e0, entry_width w e0 <= w /\ incl F [e0; spill]).
  { assert (D : (exists er t, In er F /\ chunk_word w t = i /\ In (carrier order t) lost /\ hd_error (entries w (w * t)) = Some er) \/ incl F [spill]).
    { clear - Own. induction F as [|x F' IH]; [right; intros ? []|].
      destruct (Own x (or_introl eq_refl)) as [->|(t & H1 & H2 & H3)]; [|left; exists x, t; split; [left; reflexivity|auto]].
      destruct IH as [(er & t & H0 & H)|H]; [intros er He; apply Own; right; exact He| |].
      - left. exists er, t. split; [right; exact H0|exact H].
      - right. intros y [<-|Hy]; [left; reflexivity|apply H, Hy]. }
    destruct D as [(e0 & t & He & H1 & H2 & H3)|H].
    - exists e0. split.
      + unfold entries in H3. unfold entry_width, error_range. pose proof (Z.mod_pos_bound (w * t) 32 ltac:(lia)).
        destruct ((w * t) mod 32 + w >=? 32) eqn:En; cbn [hd_error] in H3.
        * assert (E0 : e0 = (w * t / 32, (w * t) mod 32, Some (32 - 1 - (w * t) mod 32))) by congruence.
          rewrite E0. unfold e_len, e_bit. cbn [fst snd]. lia.
        * assert (E0 : e0 = (w * t / 32, (w * t) mod 32, None)) by congruence.
          rewrite E0. unfold e_len, e_bit. cbn [fst snd]. lia.
      + intros x Hx. destruct (Own x Hx) as [->|(t' & H1' & H2' & H3')]; [right; left; reflexivity|left].
        assert (t' = t) by (apply Uniq; assumption). subst t'. congruence.
    - exists spill. split; [lia|]. intros x Hx. left. destruct (H x Hx) as [|[]]; assumption. }
  destruct Cover as (e0 & We & Inc). pose proof (two_at_most (entry_width w) e0 spill F W0 NF Inc). lia. Qed.
Print Assumptions C157_candidates.

(** Non-vacuity: sixteen packets, eight-bit chunks ([m = 2], [k = 2], bursts of
    two packets), four instructions, packets 10 and 11 lost: packet 10 carries
    the end of the first instruction and packet 11 a part of the third. *)
Definition burst_prog : program :=
  [(0x1000, [mkInst 0xe1540006 16]); (0x1004, [mkInst 0x1afffff7 16]); (0x1008, [mkInst 0xe59f000c 16]); (0x100c, [mkInst 0xe1b06146 16])].
Example C157_example : 8 * 2 ^ 2 = 32 /\ good_program burst_prog /\ first_inside burst_order 8 4 [10; 11] /\
  (forall p, In p [10; 11] -> 10 <= p < 10 + 2) /\ 2 <= 2 * 4 ^ (2 - 2) /\
  rmap (fun p => map (fun kv => length (snd kv)) p) (packet_corrupt (1 * 4 ^ 2) 8 4 burst_order [10; 11] burst_prog) =
    Ok [128; 2; 256; 1]%nat.
Proof. split; [reflexivity|]. split; [split; [repeat constructor; cbn; intuition lia|repeat constructor; cbn; lia]|]. split.
  - exists 3. vm_compute. intuition congruence.
  - split; [intros p [<-|[<-|[]]]; lia|]. split; [cbn; lia|]. vm_compute; reflexivity. Qed.
