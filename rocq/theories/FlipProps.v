(** Property theorems C22-C26 (enumeration of bit flips and random bit choice). *)
From Verif Require Import ListLemmas BitsModel FlipModel FlipSpec FlipProofs FlipProofs2.
From Coq Require Import ZifyBool ZifyNat.

(** C22: corrupt_all_bits(lo, hi, e). *)
Theorem C22_every_flip_once : forall lo hi e, 0 <= lo <= hi ->
  exists l, corrupt_all_bits lo hi e = Ok l /\ hd_error l = Some e /\ NoDup l /\
    Z.of_nat (length l) = 2 ^ (hi - lo) /\
    (forall x, In x l <-> same_outside (fun i => lo <= i < hi) e x).
Proof. exact corrupt_all_bits_spec. Qed.
Print Assumptions C22_every_flip_once.

(** The remaining arguments: an empty range gives [e] alone, and a range that
    starts below bit 0 raises. *)
Theorem C22_other_ranges : forall lo hi e,
  (hi <= lo -> corrupt_all_bits lo hi e = Ok [e]) /\
  (lo < 0 -> lo < hi -> corrupt_all_bits lo hi e = Err TypeError).
Proof. intros lo hi e. split.
  - intros H. unfold corrupt_all_bits. rewrite zrange_nil by lia. reflexivity.
  - intros H1 H2. unfold corrupt_all_bits. rewrite zrange_cons by lia. cbn [foldM]. unfold on_mask.
    replace (lo <? 0) with true by lia. reflexivity. Qed.
Print Assumptions C22_other_ranges.
(** tests/test_corruptor.py:60-67 *)
Example C22_example : 0 <= 0 <= 3 /\ corrupt_all_bits 0 3 3 = Ok [3; 2; 1; 0; 7; 6; 5; 4] /\
  corrupt_all_bits 4 6 0xe59f502c = Ok [0xe59f502c; 0xe59f503c; 0xe59f500c; 0xe59f501c].
Proof. split; [lia|]. split; vm_compute; reflexivity. Qed.

(** C23: corrupt_all_bits_tuples(ts, e). *)
Theorem C23_combined_flips : forall tuples e,
  (Forall valid_range tuples -> exists l, corrupt_all_bits_tuples tuples e = Ok l /\ hd_error l = Some e /\
     Z.of_nat (length l) = 2 ^ total_width tuples /\
     (forall x, In x l <-> same_outside (covered tuples) e x) /\
     (disjoint_ranges tuples -> NoDup l)) /\
  (~ Forall valid_range tuples -> corrupt_all_bits_tuples tuples e = Err RuntimeError).
Proof. exact tuples_spec. Qed.
Print Assumptions C23_combined_flips.

(** With overlapping ranges the list always repeats encodings. *)
Theorem C23_overlap_repeats : forall tuples e l i, Forall valid_range tuples ->
  corrupt_all_bits_tuples tuples e = Ok l ->
  (exists a b u v w, tuples = u ++ a :: v ++ b :: w /\ fst a <= i < snd a /\ fst b <= i < snd b) -> ~ NoDup l.
Proof. intros tuples e l i F E (a & b & u & v & w & -> & Ha & Hb). eapply tuples_dup_overlap; [exact F|exact E|].
  unfold tuple_bits. rewrite flat_map_app. cbn [flat_map]. rewrite flat_map_app. cbn [flat_map]. intros N.
  apply NoDup_app_elim in N. destruct N as (_ & N & _). apply NoDup_app_elim in N. destruct N as (_ & _ & N).
  apply (N i); [apply in_zrange; lia|]. apply in_or_app; right. apply in_or_app; left. apply in_zrange; lia. Qed.
Print Assumptions C23_overlap_repeats.
(** tests/test_corruptor.py:69-75 (and two overlapping ranges) *)
Example C23_example : Forall valid_range [(0, 3); (8, 11)] /\ disjoint_ranges [(0, 3); (8, 11)] /\
  rmap (fun l => (length l, forallb (fun j => forallb (fun i => zmem (2 ^ 8 * j + i + 176) l) [0; 1; 2]) [0; 1; 2]))
       (corrupt_all_bits_tuples [(0, 3); (8, 11)] 176) = Ok (64%nat, true) /\
  corrupt_all_bits_tuples [(0, 1); (0, 1)] 5 = Ok [5; 4; 4; 5] /\
  corrupt_all_bits_tuples [(0, 1); (30, 32)] 5 = Err RuntimeError.
Proof. split; [repeat constructor; cbn; lia|]. split.
  - repeat constructor. intros i. cbn. lia.
  - split; [vm_compute; reflexivity|]. split; vm_compute; reflexivity. Qed.

(** C24: "e and all the encodings obtained by flipping subsets of n chosen bits".
    False from n = 3 on: only the bits drawn at positions 1, 2, 4, 8, ... are used. *)
Theorem C24_all_subsets_refuted : exists hi lo n e ds l ds',
  corrupt_bits hi lo n e ds = Ok (l, ds') /\ 0 <= lo <= hi /\ 1 <= n <= hi - lo + 1 /\ (length l < Z.to_nat (2 ^ n))%nat.
Proof. exists 31, 28, 3, 0xe59f502c, [0; 1; 2], [0xe59f502c; 0xf59f502c; 0xc59f502c; 0xd59f502c], [].
  split; [vm_compute; reflexivity|]. split; [lia|]. split; [lia|]. cbn. lia. Qed.
Print Assumptions C24_all_subsets_refuted.

(** The exact behaviour: the encodings are all the combinations of
    floor(log2 n) + 1 of the bits. *)
Theorem C24_exact_combinations : forall hi lo n e ds l ds', 0 <= lo <= hi -> 1 <= n ->
  corrupt_bits hi lo n e ds = Ok (l, ds') ->
  exists B, Z.of_nat (length B) = Z.log2 n + 1 /\ NoDup B /\ Forall (fun i => lo <= i <= hi) B /\
    hd_error l = Some e /\ NoDup l /\ (forall x, In x l <-> same_outside (fun i => In i B) e x) /\
    Z.of_nat (length l) = 2 ^ (Z.log2 n + 1).
Proof. exact corrupt_bits_spec. Qed.
Print Assumptions C24_exact_combinations.

(** So the documented 2^n combinations are produced exactly for n <= 2. *)
Theorem C24_all_subsets_partial : forall hi lo n e ds l ds', 0 <= lo <= hi -> 0 <= n ->
  corrupt_bits hi lo n e ds = Ok (l, ds') ->
  (n <= 2 -> exists B, Z.of_nat (length B) = n /\ NoDup B /\ Forall (fun i => lo <= i <= hi) B /\
      NoDup l /\ (forall x, In x l <-> same_outside (fun i => In i B) e x)) /\
  (Z.of_nat (length l) = 2 ^ n <-> n <= 2).
Proof. intros hi lo n e ds l ds' Hlh Hn H. destruct (Z.eq_dec n 0) as [->|Nz].
  - rewrite corrupt_bits_zero in H. injection H as <- <-. split; [|cbn; lia]. intros _. exists [].
    split; [reflexivity|]. split; [constructor|]. split; [constructor|]. split; [repeat constructor; auto|]. intros x. split.
    + intros [<-|[]]. apply same_outside_refl.
    + intros S. left. apply Z.bits_inj'. intros i Hi. symmetry. apply S; auto.
  - destruct (corrupt_bits_spec hi lo n e ds l ds' Hlh ltac:(lia) H) as (B & LB & NB & FB & _ & Nl & In_l & Ll). split.
    + intros H2. exists B. assert (n = 1 \/ n = 2) as [-> | ->] by lia; auto.
    + rewrite Ll. split.
      * intros E. apply Z.pow_inj_r in E; [|lia|pose proof (Z.log2_nonneg n); lia|lia].
        destruct (Z.le_gt_cases n 2) as [A|A]; [exact A|exfalso].
        assert (2 ^ (n - 1) <= n) by (replace (n - 1) with (Z.log2 n) by lia; apply Z.log2_spec; lia).
        assert (n - 3 + 1 <= 2 ^ (n - 3)) by (apply pow2_ge; lia).
        replace (n - 1) with (n - 3 + 2) in H0 by lia. rewrite Z.pow_add_r in H0 by lia. change (2 ^ 2) with 4 in H0. lia.
      * intros A. assert (n = 1 \/ n = 2) as [-> | ->] by lia; reflexivity. Qed.
Print Assumptions C24_all_subsets_partial.
(** tests/test_corruptor.py:40-48 *)
Example C24_example : 0 <= 28 <= 31 /\ 0 <= 2 /\
  corrupt_bits 31 28 2 0xe59f502c [3; 1] = Ok ([0xe59f502c; 0x659f502c; 0xc59f502c; 0x459f502c], []) /\
  corrupt_bits 31 28 3 0xe59f502c [3; 1; 0] = Ok ([0xe59f502c; 0x659f502c; 0xc59f502c; 0x459f502c], []).
Proof. split; [lia|]. split; [lia|]. split; vm_compute; reflexivity. Qed.

(** C25: the frame of corrupt_bits. *)
Theorem C25_frame : forall hi lo n e ds l ds', 0 <= lo <= hi -> 0 <= n ->
  corrupt_bits hi lo n e ds = Ok (l, ds') ->
  hd_error l = Some e /\ NoDup l /\
  Forall (same_outside (fun i => lo <= i <= hi) e) l /\ Forall (differ_at_most n e) l /\
  (1 <= n -> exists x, In x l /\ x <> e).
Proof. intros hi lo n e ds l ds' Hlh Hn H. destruct (Z.eq_dec n 0) as [->|Nz].
  - rewrite corrupt_bits_zero in H. injection H as <- <-. split; [reflexivity|]. split; [repeat constructor; auto|].
    split; [repeat constructor; apply same_outside_refl|]. split; [|lia].
    repeat constructor. exists []. split; [cbn; lia|apply same_outside_refl].
  - destruct (corrupt_bits_spec hi lo n e ds l ds' Hlh ltac:(lia) H) as (B & LB & NB & FB & Hd & Nl & In_l & Ll).
    split; [exact Hd|]. split; [exact Nl|].
    split; [|split].
    + apply Forall_forall. intros x Hx. apply In_l in Hx. intros i Hi Hn'. apply Hx; [exact Hi|]. intros Hin.
      rewrite Forall_forall in FB. apply Hn', FB, Hin.
    + apply Forall_forall. intros x Hx. apply In_l in Hx. exists B. split; [|exact Hx].
      pose proof (Z.log2_le_lin n ltac:(lia)). pose proof (Z.log2_lt_lin n ltac:(lia)). lia.
    + intros _. destruct l as [|a [|b l]]; [discriminate| |].
      * exfalso. cbn [length] in Ll. assert (2 ^ 1 <= 2 ^ (Z.log2 n + 1)) by (apply Z.pow_le_mono_r; pose proof (Z.log2_nonneg n); lia).
        change (2 ^ 1) with 2 in H0. lia.
      * cbn in Hd. injection Hd as ->. exists b. split; [right; left; reflexivity|]. intros ->.
        inversion Nl as [|? ? Hni _]. apply Hni. left; reflexivity. Qed.
Print Assumptions C25_frame.

(** It raises nothing: it returns or waits for more draws; and when more bits
    are requested than the field has, it never returns. *)
Theorem C25_returns_or_draws : forall hi lo n e ds, 0 <= lo <= hi -> 0 <= n ->
  ((exists l ds', corrupt_bits hi lo n e ds = Ok (l, ds')) \/ corrupt_bits hi lo n e ds = Err OutOfFuel) /\
  (hi - lo + 1 < n -> corrupt_bits hi lo n e ds = Err OutOfFuel).
Proof. intros hi lo n e ds H1 H2. split; [apply corrupt_bits_total; assumption|]. intros H3. apply corrupt_bits_diverges; lia. Qed.
Print Assumptions C25_returns_or_draws.
Example C25_example : 0 <= 28 <= 31 /\ 0 <= 2 /\
  corrupt_bits 31 28 2 0xe59f502c [3; 3; 1] = Ok ([0xe59f502c; 0x659f502c; 0xc59f502c; 0x459f502c], []) /\
  corrupt_conditional 5 0xe59f502c [0; 1; 2; 3; 0; 1; 2; 3] = Err OutOfFuel.
Proof. split; [lia|]. split; [lia|]. split; vm_compute; reflexivity. Qed.

(** C26: non-negative shares that never exceed the amount (so bins visited after
    the amount is exhausted hold 0). *)
Theorem C26_shares : forall amount bins ds r ds', 0 <= amount ->
  distribute_random_amount amount bins ds = Ok (r, ds') ->
  Z.of_nat (length r) = Z.max 0 bins /\ Forall (fun x => 0 <= x) r /\ zsum r <= amount /\ (bins = 1 -> r = [amount]).
Proof. exact distribute_random_amount_spec. Qed.
Print Assumptions C26_shares.
Example C26_example : 0 <= 5 /\ distribute_random_amount 5 3 [2; 2; 0; 1; 3; 1; 8] = Ok ([1; 0; 3], []) /\
  distribute_random_amount 5 3 [2; 0; 1; 5] = Ok ([0; 0; 5], []) /\ distribute_random_amount 5 1 [] = Ok ([5], []).
Proof. split; [lia|]. repeat split; vm_compute; reflexivity. Qed.
