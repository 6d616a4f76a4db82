(** Property theorems C17-C20 (predicted corruption and the packet corruptor). *)
From Verif Require Import ListLemmas InterleaveSpec FlipModel FlipSpec FlipProofs SPModel PacketModel PacketSpec PredictProofs PacketProofs.
From Coq Require Import ZifyBool ZifyNat Permutation Sorted.

(** C17: the predicted bits would be the bits of the chunks of the lost packets.
    False: the chunk at the end of a word reports the next bit instead of bit 31
    (here data of one word, two packets, packet 1 lost: bits 16..31). *)
Theorem C17_predicted_bits_refuted : exists order w words lost errors x,
  NoDup order /\ incl lost order /\ 1 <= w /\ (w | 32) /\
  predict_corruption (Z.of_nat (length order)) w words order lost = Ok errors /\
  lost_bit order w words lost x /\ ~ predicted w errors x.
Proof. exists [0; 1], 16, 1, [1], [(0, 16, Some 15); (1, 0, Some 1)], 31.
  split; [repeat constructor; cbn; intuition lia|]. split; [intros x [<-|[]]; cbn; auto|]. split; [lia|]. split; [exists 2; lia|].
  split; [vm_compute; reflexivity|]. split; [split; [lia|]; vm_compute; auto|].
  intros (e & [<-|[<-|[]]] & H); unfold error_bits in H; lia. Qed.
Print Assumptions C17_predicted_bits_refuted.

(** What is predicted, for every chunk size, order, data size and loss. *)
Theorem C17_predicted_bits_exact : forall order w words lost,
  1 <= w -> NoDup order -> incl lost order -> lost <> [] ->
  exists errors, predict_corruption (Z.of_nat (length order)) w words order lost = Ok errors /\
    forall x, predicted w errors x <-> exists t, announced order w words lost t /\ reported w t x.
Proof. exact predict_bits. Qed.
Print Assumptions C17_predicted_bits_exact.

(** With chunks that divide words and whole rounds of packets, everything is
    right except at word boundaries. *)
Theorem C17_predicted_bits_partial : forall order w words lost,
  1 <= w -> (w | 32) -> NoDup order -> incl lost order -> lost <> [] ->
  (Z.of_nat (length order) | words * (32 / w)) ->
  exists errors, predict_corruption (Z.of_nat (length order)) w words order lost = Ok errors /\
    forall x, predicted w errors x <->
      (lost_bit order w words lost x /\ x mod 32 <> 31) \/ (x mod 32 = 0 /\ lost_bit order w words lost (x - 1)).
Proof. exact predict_whole. Qed.
Print Assumptions C17_predicted_bits_partial.
(** tests/test_corruptor.py:81-96: 16 words in 16 packets of 2-bit chunks. *)
Definition order16 : list Z := match build_2d_interleave_sp 16 with Ok o => o | Err _ => [] end.
Example C17_example :
  (length order16 = 16%nat /\ NoDup order16 /\ incl [2; 3; 4] order16) /\
  rmap (fun errors => forallb (fun e => existsb (error_eqb e) errors)
          [(0, 30, Some 1); (1, 0, Some 1); (1, 30, Some 1); (2, 0, Some 1); (2, 30, Some 1); (3, 0, Some 1); (3, 30, Some 1); (4, 0, Some 1)])
       (predict_corruption 16 2 16 order16 [5]) = Ok true /\
  rmap (fun errors => forallb (fun e => existsb (error_eqb e) errors)
          [(0, 4, None); (0, 10, None); (0, 16, None); (10, 4, None); (10, 10, None); (10, 16, None); (14, 16, None); (15, 4, None); (15, 10, None)])
       (predict_corruption 16 2 16 order16 [2; 3; 4]) = Ok true.
Proof. split; [split; [vm_compute; reflexivity|]|].
  - split.
    + replace order16 with (nodup Z.eq_dec order16) by (vm_compute; reflexivity). apply NoDup_nodup.
    + intros x Hx. assert (H : forallb (fun y => existsb (Z.eqb y) order16) [2; 3; 4] = true) by (vm_compute; reflexivity).
      rewrite forallb_forall in H. specialize (H x Hx). apply existsb_exists in H. destruct H as (y & Hy & E). apply Z.eqb_eq in E. congruence.
  - split; vm_compute; reflexivity. Qed.

(** C18: same addresses, originals kept, candidates sorted, no exception. The
    last part is false: nothing is predicted when the first listed lost packet
    carries no data, and then the corruptor fails. *)
Theorem C18_keeps_program_refuted : exists order w words lost prog,
  1 <= w <= 31 /\ NoDup order /\ incl lost order /\ lost <> [] /\ good_program prog /\
  packet_corrupt (Z.of_nat (length order)) w words order lost prog = Err IndexError.
Proof. exists [0; 1; 2; 3], 16, 1, [3], [(0x1000, [mkInst 0xe1540006 0x1000])].
  split; [lia|]. split; [repeat constructor; cbn; intuition lia|]. split; [intros x [<-|[]]; cbn; auto|]. split; [congruence|].
  split; [split; [repeat constructor; cbn; auto|repeat constructor; cbn; lia]|]. vm_compute; reflexivity. Qed.
Print Assumptions C18_keeps_program_refuted.

Theorem C18_keeps_program_partial : forall order w words lost prog,
  1 <= w <= 32 -> NoDup order -> incl lost order -> lost <> [] -> good_program prog ->
  (first_inside order w words lost ->
   exists prog', packet_corrupt (Z.of_nat (length order)) w words order lost prog = Ok prog' /\
     dkeys prog' = dkeys prog /\
     forall a l, dget prog a = Some l -> exists l', dget prog' a = Some l' /\ sorted_by_encoding l' /\
       forall i, In i l -> In (i_enc i) (map i_enc l')) /\
  (~ first_inside order w words lost ->
   packet_corrupt (Z.of_nat (length order)) w words order lost prog = Err IndexError).
Proof. intros order w words lost prog Hw N I Hl G. split.
  - intros Hf. destruct (packet_main order w words lost prog Hw N I Hl G Hf) as (errors & prog' & _ & _ & Ie & Ec & Ek & sorted & Pm & Ed).
    exists prog'. split; [exact Ec|]. split; [exact Ek|]. intros a l Ha.
    assert (Hin : In a (dkeys prog)) by (apply dget_some_in; eauto). destruct (address_rank prog a Hin) as (i & _ & Hi).
    eexists. split; [apply (Ed i a l Hi Ha)|]. split; [apply sort_by_sorted|]. intros j Hj.
    apply (Permutation_in _ (Permutation_map i_enc (Permutation_sym (sort_by_perm i_enc _)))).
    apply apply_ranges_in.
    + apply Forall_forall. intros t Ht. unfold ranges_of in Ht. apply in_map_iff in Ht. destruct Ht as (e & <- & He).
      apply filter_In in He. destruct He as [He _]. apply (Permutation_in _ Pm), Ie in He. destruct He as (t & At & He).
      apply (entries_valid w t e Hw); [apply At|exact He].
    + exists j. split; [exact Hj|apply same_outside_refl].
  - intros Hf. apply packet_no_error; try assumption. lia. Qed.
Print Assumptions C18_keeps_program_partial.

(** Without losses it refuses; without an order it uses the successive-packing one. *)
Theorem C18_arguments : forall P w words order interleave lost prog,
  packet_corrupt P w words interleave [] prog = Err RuntimeError /\
  (build_2d_interleave_sp P = Ok order -> order <> [] ->
   packet_corrupt P w words [] lost prog = packet_corrupt P w words order lost prog).
Proof. intros. split; [reflexivity|]. intros H Hn. unfold packet_corrupt. destruct lost; [reflexivity|].
  destruct order; [congruence|]. rewrite H. reflexivity. Qed.
Print Assumptions C18_arguments.

(** tests/test_corruptor.py:98-122 *)
Definition prog4 : program :=
  [(0x1000, [mkInst 0xe1540006 16]); (0x1004, [mkInst 0x1afffff7 16]); (0x1008, [mkInst 0xe59f000c 16]); (0x1028, [mkInst 0xe1b06146 16])].
Example C18_example : good_program prog4 /\ first_inside order16 2 4 [2; 3; 4] /\
  rmap (fun p => (dkeys p, map (fun kv => length (snd kv)) p)) (packet_corrupt 16 2 4 order16 [2; 3; 4] prog4) =
    Ok ([0x1000; 0x1004; 0x1008; 0x1028], [64; 64; 64; 64]%nat).
Proof. split; [split; [repeat constructor; cbn; intuition lia|repeat constructor; cbn; lia]|]. split.
  - exists 2. vm_compute. intuition congruence.
  - vm_compute; reflexivity. Qed.

(** C19: the candidates at the [i]-th lowest address. *)
Theorem C19_candidates : forall order w words lost prog i a e adr,
  1 <= w <= 32 -> NoDup order -> incl lost order -> lost <> [] -> good_program prog -> first_inside order w words lost ->
  nth_address prog i a -> dget prog a = Some [mkInst e adr] ->
  exists errors prog' l,
    predict_corruption (Z.of_nat (length order)) w words order lost = Ok errors /\
    packet_corrupt (Z.of_nat (length order)) w words order lost prog = Ok prog' /\
    dget prog' a = Some l /\ Forall (fun c => i_addr c = adr) l /\
    (forall x, In x (map i_enc l) <-> same_outside (fun b => b < 32 /\ predicted w errors (32 * i + b)) e x) /\
    ((forall er, In er errors -> e_word er <> i) -> l = [mkInst e adr]).
Proof. intros order w words lost prog i a e adr Hw N I Hl G Hf Hi Ha.
  destruct (packet_main order w words lost prog Hw N I Hl G Hf) as (errors & prog' & Ep & _ & Ie & Ec & Ek & sorted & Pm & Ed).
  assert (V : forall er, In er errors -> valid_range (error_range w er)).
  { intros er He. apply Ie in He. destruct He as (t & At & He). apply (entries_valid w t er Hw); [apply At|exact He]. }
  exists errors, prog'. eexists. split; [exact Ep|]. split; [exact Ec|]. split; [apply (Ed i a _ Hi Ha)|].
  assert (FV : Forall valid_range (ranges_of w sorted i)).
  { apply Forall_forall. intros t Ht. unfold ranges_of in Ht. apply in_map_iff in Ht. destruct Ht as (er & <- & He).
    apply filter_In in He. destruct He as [He _]. apply V, (Permutation_in _ Pm He). }
  split; [|split].
  - apply Forall_forall. intros c Hc. apply (Permutation_in _ (sort_by_perm i_enc _)) in Hc.
    apply apply_ranges_addr in Hc. exact Hc.
  - intros x. pose proof (Permutation_map i_enc (sort_by_perm i_enc (apply_ranges (ranges_of w sorted i) [mkInst e adr]))) as P.
    assert (X : In x (map i_enc (sort_by i_enc (apply_ranges (ranges_of w sorted i) [mkInst e adr]))) <->
                In x (map i_enc (apply_ranges (ranges_of w sorted i) [mkInst e adr]))).
    { split; apply Permutation_in; [exact P|symmetry; exact P]. }
    rewrite X, apply_ranges_in by exact FV. split.
    + intros (j & [<-|[]] & S). cbn [i_enc] in S. intros b Hb Hn. apply S; [exact Hb|]. intros C.
      apply (covered_predicted w errors sorted i b Pm V) in C. apply Hn. destruct C; split; [lia|assumption].
    + intros S. exists (mkInst e adr). split; [left; reflexivity|]. intros b Hb Hn. apply S; [exact Hb|]. intros [C1 C2]. apply Hn.
      apply (covered_predicted w errors sorted i b Pm V). split; [lia|exact C2].
  - intros H. assert (R : ranges_of w sorted i = []); [|rewrite R; reflexivity].
    unfold ranges_of. rewrite filter_false; [reflexivity|]. intros er He. apply (Permutation_in _ Pm) in He. specialize (H er He). lia. Qed.
Print Assumptions C19_candidates.

(** End to end, in terms of the bits carried by the lost packets. *)
Theorem C19_candidates_of_losses : forall order w words lost prog i a e adr,
  1 <= w -> (w | 32) -> (Z.of_nat (length order) | words * (32 / w)) ->
  NoDup order -> incl lost order -> lost <> [] -> good_program prog -> first_inside order w words lost ->
  nth_address prog i a -> dget prog a = Some [mkInst e adr] ->
  exists prog' l, packet_corrupt (Z.of_nat (length order)) w words order lost prog = Ok prog' /\ dget prog' a = Some l /\
    forall x, In x (map i_enc l) <->
      same_outside (fun b => (b < 31 /\ lost_bit order w words lost (32 * i + b)) \/ (b = 0 /\ lost_bit order w words lost (32 * i - 1))) e x.
Proof. intros order w words lost prog i a e adr Hw Hd HP N I Hl G Hf Hi Ha.
  destruct (InterleaveProofs.divisor_parts w ltac:(lia) Hd) as (_ & _ & Hw32).
  destruct (C19_candidates order w words lost prog i a e adr ltac:(lia) N I Hl G Hf Hi Ha) as (errors & prog' & l & Ep & Ec & El & _ & Hx & _).
  destruct (predict_whole order w words lost Hw Hd N I Hl HP) as (errors' & Ep' & Hp). assert (errors' = errors) by congruence. subst errors'.
  exists prog', l. split; [exact Ec|]. split; [exact El|]. intros x. rewrite Hx.
  assert (Eq : forall b, 0 <= b -> (b < 32 /\ predicted w errors (32 * i + b) <->
    (b < 31 /\ lost_bit order w words lost (32 * i + b)) \/ (b = 0 /\ lost_bit order w words lost (32 * i - 1)))).
  { intros b Hb. rewrite Hp. destruct (Z.lt_ge_cases b 32) as [A|A]; [|split; [lia|intros [[? _]|[? _]]; lia]].
    assert (M : (32 * i + b) mod 32 = b) by (symmetry; apply Z.mod_unique with i; lia). rewrite M. split.
    - intros [_ [[H1 H2]|[-> H2]]]; [left; split; [lia|exact H1]|right]. split; [reflexivity|].
      replace (32 * i - 1) with (32 * i + 0 - 1) by lia. exact H2.
    - intros [[H1 H2]|[-> H2]]; (split; [lia|]); [left; split; [exact H2|lia]|right]. split; [reflexivity|].
      replace (32 * i + 0 - 1) with (32 * i - 1) by lia. exact H2. }
  split; intros S b Hb Hn; apply S; try exact Hb; intros C; apply Hn, Eq; assumption. Qed.
Print Assumptions C19_candidates_of_losses.
Example C19_example : nth_address prog4 1 0x1004 /\ dget prog4 0x1004 = Some [mkInst 0x1afffff7 16] /\
  rmap (fun p => option_map (fun l => firstn 5 (map i_enc l)) (dget p 0x1004)) (packet_corrupt 16 2 4 order16 [2; 3; 4] prog4) =
    Ok (Some [0x1afcf3c7; 0x1afcf3d7; 0x1afcf3e7; 0x1afcf3f7; 0x1afcf7c7]).
Proof. split; [split; [cbn; auto|vm_compute; reflexivity]|]. split; vm_compute; reflexivity. Qed.

(** C20: no address lists an encoding twice. False: two lost chunks that meet at
    a word boundary. *)
Theorem C20_no_repeats_refuted : exists order w words lost prog prog' a l,
  1 <= w <= 31 /\ NoDup order /\ incl lost order /\ lost <> [] /\ good_program prog /\
  packet_corrupt (Z.of_nat (length order)) w words order lost prog = Ok prog' /\
  dget prog' a = Some l /\ ~ NoDup (map i_enc l).
Proof. exists (zrange 0 64), 1, 2, [31; 32], [(0, [mkInst 0 0]); (4, [mkInst 0 4])],
    [(0, [mkInst 0 0]); (4, [mkInst 0 4; mkInst 0 4; mkInst 1 4; mkInst 1 4])], 4, [mkInst 0 4; mkInst 0 4; mkInst 1 4; mkInst 1 4].
  split; [lia|]. split; [apply zrange_nodup|]. split; [intros x Hx; apply in_zrange; cbn in Hx; lia|]. split; [congruence|].
  split; [split; [repeat constructor; cbn; intuition lia|repeat constructor; cbn; lia]|].
  split; [vm_compute; reflexivity|]. split; [reflexivity|].
  intros X. inversion X as [|? ? Hn _]. apply Hn. left; reflexivity. Qed.
Print Assumptions C20_no_repeats_refuted.

(** Exactly when an address with one original candidate has repeated encodings:
    when two consecutive chunks are reported, the first reaches the end of its
    word and the second starts in the word of that address. *)
Theorem C20_no_repeats_partial : forall order w words lost prog i a e adr prog' l,
  1 <= w <= 32 -> NoDup order -> incl lost order -> lost <> [] -> good_program prog ->
  packet_corrupt (Z.of_nat (length order)) w words order lost prog = Ok prog' ->
  nth_address prog i a -> dget prog a = Some [mkInst e adr] -> dget prog' a = Some l ->
  (NoDup (map i_enc l) <->
   ~ exists t, announced order w words lost t /\ announced order w words lost (t + 1) /\
               32 <= chunk_bit w t + w /\ chunk_word w (t + 1) = i).
Proof. intros order w words lost prog i a e adr prog' l Hw N I Hl G E Hi Ha Hl'.
  assert (Ho : order <> []) by (destruct lost as [|p ?]; [congruence|]; intros ->; apply (I p); left; reflexivity).
  assert (Hf : first_inside order w words lost).
  { assert (D : first_inside order w words lost \/ ~ first_inside order w words lost).
    { destruct lost as [|p lost0]; [congruence|]. assert (Hp : In p order) by (apply I; left; reflexivity).
      apply zindex_in in Hp. destruct Hp as (k & Ek). apply zindex_spec in Ek. destruct Ek as [Bk Ek].
      assert (C : forall t0, 0 <= t0 < Z.of_nat (length order) -> hd_error (p :: lost0) = Some (carrier order t0) -> t0 = k).
      { intros t0 B Hd. cbn in Hd. injection Hd as Hd. unfold carrier in Hd. rewrite Z.mod_small in Hd by lia.
        assert (Z.to_nat t0 = Z.to_nat k) by (apply (proj1 (NoDup_nth order (-1)) N); [lia|lia|congruence]). lia. }
      destruct (Z.lt_ge_cases (w * k) (32 * words)) as [A|A].
      - left. exists k. split; [exact Bk|]. split; [|exact A]. unfold carrier. rewrite Z.mod_small by lia. cbn. congruence.
      - right. intros (t0 & B & Hd & H0). rewrite (C t0 B Hd) in H0. lia. }
    destruct D as [D|D]; [exact D|]. rewrite packet_no_error in E by (try assumption; lia). discriminate. }
  destruct (packet_main order w words lost prog Hw N I Hl G Hf) as (errors & prog2 & Ep & Ne & Ie & Ec & Ek & sorted & Pm & Ed).
  assert (prog2 = prog') by congruence. subst prog2. rewrite (Ed i a _ Hi Ha) in Hl'. injection Hl' as <-.
  assert (FV : Forall valid_range (ranges_of w sorted i)).
  { apply Forall_forall. intros t Ht. unfold ranges_of in Ht. apply in_map_iff in Ht. destruct Ht as (er & <- & He).
    apply filter_In in He. destruct He as [He _]. apply (Permutation_in _ Pm), Ie in He. destruct He as (t & At & He).
    apply (entries_valid w t er Hw); [apply At|exact He]. }
  pose proof (Permutation_map i_enc (sort_by_perm i_enc (apply_ranges (ranges_of w sorted i) [mkInst e adr]))) as P.
  assert (X : NoDup (map i_enc (sort_by i_enc (apply_ranges (ranges_of w sorted i) [mkInst e adr]))) <->
              NoDup (map i_enc (apply_ranges (ranges_of w sorted i) [mkInst e adr]))).
  { split; apply Permutation_NoDup; [exact P|symmetry; exact P]. }
  rewrite X, single_nodup by exact FV. apply (nodup_word order w words lost errors sorted i Hw Ne Pm Ie). Qed.
Print Assumptions C20_no_repeats_partial.
Example C20_example : (* a loss without repetitions, and the reported chunks of the loss above *)
  rmap (fun p => dget p 4) (packet_corrupt 64 1 2 (zrange 0 64) [31] [(0, [mkInst 0 0]); (4, [mkInst 0 4])]) =
    Ok (Some [mkInst 0 4; mkInst 1 4]) /\
  announced (zrange 0 64) 1 2 [31; 32] 31 /\ announced (zrange 0 64) 1 2 [31; 32] (31 + 1) /\
  32 <= chunk_bit 1 31 + 1 /\ chunk_word 1 (31 + 1) = 1.
Proof. split; [vm_compute; reflexivity|].
  split; [split; [lia|]; split; [lia|]; split; [vm_compute; auto|]; exists 31; split; [reflexivity|]; split; [vm_compute; reflexivity|lia]|].
  split; [split; [lia|]; split; [lia|]; split; [vm_compute; auto|]; exists 31; split; [reflexivity|]; split; [vm_compute; reflexivity|lia]|].
  split; vm_compute; congruence. Qed.
