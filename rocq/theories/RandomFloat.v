(** Error bounds for the binary64 operations used by corrupt_program. *)
From Verif Require Import ListLemmas RandomModel RandomSpec.
From Coq Require Import ZifyBool ZifyNat.

Lemma digits_bounds p : 2 ^ (Zpos (digits2_pos p) - 1) <= Zpos p < 2 ^ Zpos (digits2_pos p).
Proof. induction p as [p IH|p IH|]; cbn [digits2_pos]; [| |cbn; lia]; rewrite Pos2Z.inj_succ; set (d := Zpos (digits2_pos p)) in *;
  replace (Z.succ d - 1) with d by lia; rewrite Z.pow_succ_r by lia; replace (2 ^ d) with (2 * 2 ^ (d - 1)) in *; try lia;
  rewrite <- Z.pow_succ_r by lia; f_equal; lia. Qed.
Lemma digits_is p d : 2 ^ (d - 1) <= Zpos p < 2 ^ d -> Zpos (digits2_pos p) = d.
Proof. intros [A B]. pose proof (digits_bounds p) as [C D]. set (k := Zpos (digits2_pos p)) in *.
  assert (0 <= d) by (destruct (Z_lt_le_dec d 0) as [L|L]; [rewrite (Z.pow_neg_r 2 d) in B by lia; lia|exact L]).
  assert (k - 1 < d) by (apply (Z.pow_lt_mono_r_iff 2); lia). assert (d - 1 < k) by (apply (Z.pow_lt_mono_r_iff 2); lia). lia. Qed.

Lemma iter_add {A} (f : A -> A) a b x : Nat.iter (a + b) f x = Nat.iter a f (Nat.iter b f x).
Proof. induction a as [|a IH]; [reflexivity|]. cbn [Nat.add Nat.iter nat_rect]. exact (f_equal f IH). Qed.
Lemma iter_nat {A} (f : A -> A) n : forall x, iter_pos f n x = Nat.iter (Pos.to_nat n) f x.
Proof. induction n as [n IH|n IH|]; intros x; cbn [iter_pos]; [| |reflexivity].
  - rewrite !IH. replace (Pos.to_nat n~1) with (Pos.to_nat n + (Pos.to_nat n + 1))%nat by lia. rewrite !iter_add. reflexivity.
  - rewrite !IH. replace (Pos.to_nat n~0) with (Pos.to_nat n + Pos.to_nat n)%nat by lia. rewrite !iter_add. reflexivity. Qed.
Lemma shr_1_m r : 0 <= shr_m r -> shr_m (shr_1 r) = shr_m r / 2 /\ 0 <= shr_m (shr_1 r).
Proof. destruct r as [m r s]. cbn [shr_m]. intros H. destruct m as [|[p|p|]|p]; cbn [shr_1 shr_m]; lia. Qed.
Lemma shr_iter k : forall r, 0 <= shr_m r -> shr_m (Nat.iter k shr_1 r) = shr_m r / 2 ^ Z.of_nat k.
Proof. intros r H. enough (X : shr_m (Nat.iter k shr_1 r) = shr_m r / 2 ^ Z.of_nat k /\ 0 <= shr_m (Nat.iter k shr_1 r)) by apply X.
  induction k as [|k [IH P]]; [rewrite Z.div_1_r; cbn; auto|]. change (Nat.iter (S k) shr_1 r) with (shr_1 (Nat.iter k shr_1 r)). destruct (shr_1_m _ P) as [E Q]. split; [|exact Q]. rewrite E, IH, Z.div_div by (try apply Z.pow_nonzero; lia).
  f_equal. rewrite Nat2Z.inj_succ, Z.pow_succ_r by lia. lia. Qed.
Lemma shr_m_of r e n : 0 <= n -> 0 <= shr_m r -> shr_m (fst (shr r e n)) = shr_m r / 2 ^ n /\ snd (shr r e n) = e + n.
Proof. intros N H. destruct n as [|n|n]; [|  |lia]; cbn [shr fst snd]; [rewrite Z.div_1_r; split; lia|]. split; [|reflexivity]. rewrite iter_nat, shr_iter by exact H. rewrite positive_nat_Z. reflexivity. Qed.

Lemma fexp_normal e : -1000 <= e -> fexp 53 1024 e = e - 53.
Proof. intros H. unfold fexp, emin. lia. Qed.

(** Rounding a mantissa of at least 53 bits. *)
Lemma round_aux_ok m0 ex lx D : D = Zpos (digits2_pos m0) -> 53 <= D -> -1000 <= D + ex <= 1000 ->
  exists m e z, binary_round_aux 53 1024 false (Zpos m0) ex lx = S754_finite false m e /\ 2 ^ 52 <= Zpos m < 2 ^ 53 /\
    (z = Zpos m0 / 2 ^ (D - 53) \/ z = Zpos m0 / 2 ^ (D - 53) + 1) /\
    ((e = ex + D - 53 /\ Zpos m = z) \/ (e = ex + D - 53 + 1 /\ 2 * Zpos m = z)).
Proof. intros HD D53 R. unfold binary_round_aux, shr_fexp. cbn [Zdigits2]. rewrite <- HD, fexp_normal by lia. replace (D + ex - 53 - ex) with (D - 53) by lia.
  pose proof (shr_m_of (shr_record_of_loc (Zpos m0) lx) ex (D - 53) ltac:(lia)) as S1. assert (M : shr_m (shr_record_of_loc (Zpos m0) lx) = Zpos m0) by (destruct lx as [|[]]; reflexivity). rewrite M in S1. specialize (S1 ltac:(lia)).
  destruct (shr (shr_record_of_loc (Zpos m0) lx) ex (D - 53)) as [r1 e1]. cbn [fst snd] in S1. destruct S1 as [E1 E2]. subst e1.
  set (z := round_nearest_even (shr_m r1) (loc_of_shr_record r1)). assert (Hz : z = Zpos m0 / 2 ^ (D - 53) \/ z = Zpos m0 / 2 ^ (D - 53) + 1).
  { unfold z. rewrite E1. destruct (loc_of_shr_record r1) as [|[]]; cbn [round_nearest_even]; auto. destruct (Z.even _); auto. }
  assert (B : 2 ^ 52 <= z <= 2 ^ 53).
  { pose proof (digits_bounds m0) as [B1 B2]. rewrite <- HD in B1, B2. assert (2 ^ 52 <= Zpos m0 / 2 ^ (D - 53)) by (apply Z.div_le_lower_bound; [apply Z.pow_pos_nonneg; lia|]; rewrite <- Z.pow_add_r by lia; replace (D - 53 + 52) with (D - 1) by lia; exact B1).
    assert (Zpos m0 / 2 ^ (D - 53) < 2 ^ 53) by (apply Z.div_lt_upper_bound; [apply Z.pow_pos_nonneg; lia|]; rewrite <- Z.pow_add_r by lia; replace (D - 53 + 53) with D by lia; exact B2). lia. }
  clearbody z. destruct z as [|z|z]; [lia| |lia]. cbn [Zdigits2].
  destruct (Z.eq_dec (Zpos z) (2 ^ 53)) as [E|E].
  - rewrite (digits_is z 54) by (rewrite E; lia). rewrite fexp_normal by lia. replace (54 + (ex + (D - 53)) - 53 - (ex + (D - 53))) with 1 by lia.
    pose proof (shr_m_of (shr_record_of_loc (Zpos z) loc_Exact) (ex + (D - 53)) 1 ltac:(lia) ltac:(cbn; lia)) as S2. destruct (shr (shr_record_of_loc (Zpos z) loc_Exact) (ex + (D - 53)) 1) as [r2 e2]. cbn [fst snd shr_record_of_loc shr_m] in S2. destruct S2 as [E3 ->]. rewrite E in E3.
    change (2 ^ 53 / 2 ^ 1) with (2 ^ 52) in E3. rewrite E3. change (2 ^ 52) with (Zpos (2 ^ 52)). cbv iota beta. replace (ex + (D - 53) + 1 <=? 1024 - 53) with true by lia.
    eexists _, _, _. split; [reflexivity|]. split; [lia|]. split; [exact Hz|]. right. split; [lia|]. rewrite E. reflexivity.
  - rewrite (digits_is z 53) by lia. rewrite fexp_normal by lia. replace (53 + (ex + (D - 53)) - 53 - (ex + (D - 53))) with 0 by lia. cbn [shr shr_record_of_loc shr_m].
    replace (ex + (D - 53) <=? 1024 - 53) with true by lia. exists z, (ex + (D - 53)), (Zpos z). split; [reflexivity|]. split; [lia|]. split; [exact Hz|]. left. split; lia. Qed.

(** In integers: the result [m * 2^e] is within [2^-52] of any value between the
    mantissa and its successor. [c] and [y] scale: [c * m0 <= y <= c * (m0 + 1)]. *)
Lemma round_aux_near m0 ex lx c y s : 2 ^ 52 <= Zpos m0 -> -900 <= ex -> Zpos m0 < 2 ^ 110 -> ex <= 500 -> 0 <= ex + s -> 0 <= c -> c * Zpos m0 <= y <= c * (Zpos m0 + 1) ->
  exists m e, binary_round_aux 53 1024 false (Zpos m0) ex lx = S754_finite false m e /\ 2 ^ 52 <= Zpos m < 2 ^ 53 /\ ex <= e <= ex + 60 /\
    2 ^ 52 * Z.abs (c * (Zpos m * 2 ^ (e + s)) - y * 2 ^ (ex + s)) <= y * 2 ^ (ex + s).
Proof. intros L X U X2 Xs C Y. pose proof (digits_bounds m0) as [B1 B2]. set (D := Zpos (digits2_pos m0)) in *.
  assert (53 <= D) by (assert (52 < D) by (apply (Z.pow_lt_mono_r_iff 2); lia); lia). assert (D <= 110) by (assert (D - 1 < 110) by (apply (Z.pow_lt_mono_r_iff 2); lia); lia).
  destruct (round_aux_ok m0 ex lx D eq_refl ltac:(lia) ltac:(lia)) as (m & e & z & E & M & Hz & V). exists m, e. split; [exact E|]. split; [exact M|]. split; [lia|].
  set (n := D - 53) in *. assert (V' : Zpos m * 2 ^ (e + s) = z * 2 ^ n * 2 ^ (ex + s)).
  { destruct V as [[-> ->]|[-> V]]; rewrite <- ?V; [replace (ex + D - 53 + s) with (n + (ex + s)) by lia; rewrite Z.pow_add_r by lia; ring|]. replace (ex + D - 53 + 1 + s) with (1 + n + (ex + s)) by lia. rewrite !Z.pow_add_r by lia. ring. }
  rewrite V'. set (P := 2 ^ (ex + s)). assert (0 < P) by (apply Z.pow_pos_nonneg; lia).
  replace (c * (z * 2 ^ n * P) - y * P) with ((c * (z * 2 ^ n) - y) * P) by ring. rewrite Z.abs_mul, (Z.abs_eq P) by lia. rewrite Z.mul_assoc. apply Z.mul_le_mono_nonneg_r; [lia|].
  set (N := 2 ^ n) in *. assert (0 < N) by (apply Z.pow_pos_nonneg; lia).
  assert (Nn : 2 ^ 52 * N <= Zpos m0) by (unfold N; rewrite <- Z.pow_add_r by lia; replace (52 + n) with (D - 1) by lia; exact B1).
  pose proof (Z.div_mod (Zpos m0) N ltac:(lia)) as DM. pose proof (Z.mod_pos_bound (Zpos m0) N ltac:(lia)) as MB.
  set (u := z * N). assert (Hu : Zpos m0 + 1 - N <= u <= Zpos m0 + N) by (unfold u; destruct Hz as [-> | ->]; lia).
  assert (A : Z.abs (c * u - y) <= c * N). { assert (c * (Zpos m0 + 1 - N) <= c * u) by (apply Z.mul_le_mono_nonneg_l; lia). assert (c * u <= c * (Zpos m0 + N)) by (apply Z.mul_le_mono_nonneg_l; lia). lia. }
  assert (A2 : c * (2 ^ 52 * N) <= c * Zpos m0) by (apply Z.mul_le_mono_nonneg_l; lia). lia. Qed.

(** Integers below 2^53 are exact. *)
Lemma of_int_exact z : 1 <= z < 2 ^ 53 -> exists m e, float_of_int z = S754_finite false m e /\ 2 ^ 52 <= Zpos m < 2 ^ 53 /\ -52 <= e <= 0 /\ Zpos m = z * 2 ^ (- e).
Proof. intros H. destruct z as [|p|p]; [lia| |lia]. unfold float_of_int, binary_normalize, binary_round. pose proof (digits_bounds p) as [B1 B2]. set (D := Zpos (digits2_pos p)) in *.
  assert (1 <= D) by lia. assert (D <= 53) by (assert (D - 1 < 53) by (apply (Z.pow_lt_mono_r_iff 2); lia); lia).
  rewrite fexp_normal by lia. replace (D + 0 - 53) with (D - 53) by lia. unfold shl_align. replace (D - 53 - 0) with (D - 53) by lia.
  assert (A : forall m e, 2 ^ 52 <= Zpos m < 2 ^ 53 -> -52 <= e <= 0 -> binary_round_aux 53 1024 false (Zpos m) e loc_Exact = S754_finite false m e).
  { intros m e Hm He. unfold binary_round_aux, shr_fexp. cbn [Zdigits2]. rewrite (digits_is m 53) by lia. rewrite fexp_normal by lia. replace (53 + e - 53 - e) with 0 by lia. cbn [shr shr_record_of_loc loc_of_shr_record shr_m round_nearest_even Zdigits2].
    rewrite (digits_is m 53) by lia. rewrite fexp_normal by lia. replace (53 + e - 53 - e) with 0 by lia. cbn [shr shr_record_of_loc shr_m]. replace (e <=? 1024 - 53) with true by lia. reflexivity. }
  destruct (D - 53) as [|d|d] eqn:E; [|lia|].
  - exists p, 0. rewrite A by (replace 52 with (D - 1) by lia; replace 53 with D by lia; lia). split; [reflexivity|]. split; [replace 52 with (D - 1) by lia; replace 53 with D by lia; lia|]. split; [lia|]. cbn [Z.opp]. lia.
  - assert (Sp : Zpos (shift_pos d p) = Zpos p * 2 ^ Zpos d) by (rewrite shift_pos_correct; rewrite Z.mul_comm; reflexivity).
    assert (B : 2 ^ 52 <= Zpos (shift_pos d p) < 2 ^ 53). { rewrite Sp. assert (0 < 2 ^ Zpos d) by (apply Z.pow_pos_nonneg; lia). replace 52 with (D - 1 + Zpos d) by lia. replace 53 with (D + Zpos d) by lia. rewrite !Z.pow_add_r by lia. split; [apply Z.mul_le_mono_nonneg_r; lia|apply Z.mul_lt_mono_pos_r; lia]. }
    exists (shift_pos d p), (Zneg d). rewrite A by lia. split; [reflexivity|]. split; [exact B|]. split; [lia|]. rewrite Sp. reflexivity. Qed.

(** percent / 100 *)
Lemma div_100 p : 1 <= p < 2 ^ 53 -> exists m e, fdiv (float_of_int p) (float_of_int 100) = S754_finite false m e /\ 2 ^ 52 <= Zpos m < 2 ^ 53 /\ -100 <= e <= 70 /\
  2 ^ 52 * Z.abs (100 * (Zpos m * 2 ^ (e + 200)) - p * 2 ^ 200) <= p * 2 ^ 200.
Proof. intros H. destruct (of_int_exact p H) as (m1 & e1 & E1 & M1 & R1 & V1). rewrite E1. set (m2 := (100 * 2 ^ 46)%positive). assert (E2 : float_of_int 100 = S754_finite false m2 (-46)) by (vm_compute; reflexivity). rewrite E2.
  unfold fdiv, SFdiv, SFdiv_core_binary. cbn [Zdigits2 xorb]. rewrite (digits_is m1 53) by lia. assert (D2 : Zpos (digits2_pos m2) = 53) by (vm_compute; reflexivity). rewrite D2.
  rewrite fexp_normal by lia. replace (Z.min (53 + e1 - (53 + -46) - 53) (e1 - -46)) with (e1 - 7) by lia. replace (e1 - -46 - (e1 - 7)) with 53 by lia. cbv iota. rewrite Z.shiftl_mul_pow2 by lia.
  pose proof (Z_div_mod (Zpos m1 * 2 ^ 53) (Zpos m2) ltac:(lia)) as DM. destruct (Z.div_eucl (Zpos m1 * 2 ^ 53) (Zpos m2)) as [q r]. destruct DM as [Q R].
  assert (M2 : Zpos m2 = 100 * 2 ^ 46) by reflexivity.
  assert (Q1 : 2 ^ 52 <= q) by lia. assert (Q2 : q < 2 ^ 110) by lia.
  destruct q as [|q|q]; [lia| |lia].
  destruct (round_aux_near q (e1 - 7) (new_location (Zpos m2) r) (Zpos m2) (Zpos m1 * 2 ^ 53) 200 Q1 ltac:(lia) Q2 ltac:(lia) ltac:(lia) ltac:(lia) ltac:(lia)) as (m & e & E & M & Re & Near).
  exists m, e. split; [exact E|]. split; [exact M|]. split; [lia|].
  assert (P : Zpos m1 * 2 ^ 53 * 2 ^ (e1 - 7 + 200) = p * 2 ^ 200 * 2 ^ 46). { rewrite V1. rewrite <- !Z.mul_assoc. f_equal. rewrite <- !Z.pow_add_r by lia. f_equal. lia. }
  rewrite P, M2 in Near. replace (100 * 2 ^ 46 * (Zpos m * 2 ^ (e + 200)) - p * 2 ^ 200 * 2 ^ 46) with (2 ^ 46 * (100 * (Zpos m * 2 ^ (e + 200)) - p * 2 ^ 200)) in Near by ring.
  rewrite Z.abs_mul in Near. change (Z.abs (2 ^ 46)) with (2 ^ 46) in Near. revert Near. generalize (p * 2 ^ 200). intros u. generalize (Z.abs (100 * (Zpos m * 2 ^ (e + 200)) - u)). intros v. lia. Qed.

(** n * (percent / 100) *)
Lemma times_share n p : 1 <= n < 2 ^ 53 -> 1 <= p < 2 ^ 53 -> n * p <= 2 ^ 50 ->
  exists m e, fmul (float_of_int n) (fdiv (float_of_int p) (float_of_int 100)) = S754_finite false m e /\ 2 ^ 52 <= Zpos m < 2 ^ 53 /\ -200 <= e <= 200 /\
    Z.abs (100 * (Zpos m * 2 ^ (e + 200)) - n * p * 2 ^ 200) < 2 ^ 200.
Proof. intros Hn Hp S. destruct (of_int_exact n Hn) as (m1 & e1 & E1 & M1 & R1 & V1). destruct (div_100 p Hp) as (m2 & e2 & E2 & M2 & R2 & V2). rewrite E1, E2. unfold fmul, SFmul. cbn [xorb].
  assert (L : 2 ^ 104 <= Zpos (m1 * m2)) by (rewrite Pos2Z.inj_mul; replace 104 with (52 + 52) by lia; rewrite Z.pow_add_r by lia; apply Z.mul_le_mono_nonneg; lia).
  assert (U : Zpos (m1 * m2) < 2 ^ 110) by (rewrite Pos2Z.inj_mul; apply (Z.lt_le_trans _ (2 ^ 53 * 2 ^ 53)); [apply Z.mul_lt_mono_nonneg; lia|lia]).
  destruct (round_aux_near (m1 * m2) (e1 + e2) loc_Exact 1 (Zpos (m1 * m2)) 200 ltac:(lia) ltac:(lia) U ltac:(lia) ltac:(lia) ltac:(lia) ltac:(lia)) as (m & e & E & M & Re & Near).
  exists m, e. split; [exact E|]. split; [exact M|]. split; [lia|].
  assert (P : Zpos (m1 * m2) * 2 ^ (e1 + e2 + 200) = n * (Zpos m2 * 2 ^ (e2 + 200))). { rewrite Pos2Z.inj_mul, V1. replace (e2 + 200) with (- e1 + (e1 + e2 + 200)) by lia. rewrite (Z.pow_add_r 2 (- e1)) by lia. ring. }
  rewrite P in Near. set (b := Zpos m2 * 2 ^ (e2 + 200)) in *. set (a := Zpos m * 2 ^ (e + 200)) in *. clearbody a b. set (B := 2 ^ 200) in *. assert (0 < B) by (unfold B; lia). clearbody B.
  assert (V3 : 2 ^ 52 * Z.abs (100 * (n * b) - n * p * B) <= n * p * B). { replace (100 * (n * b) - n * p * B) with (n * (100 * b - p * B)) by ring. rewrite Z.abs_mul, (Z.abs_eq n) by lia. replace (2 ^ 52 * (n * Z.abs (100 * b - p * B))) with (n * (2 ^ 52 * Z.abs (100 * b - p * B))) by ring. rewrite <- Z.mul_assoc. apply Z.mul_le_mono_nonneg_l; lia. }
  assert (V4 : n * p * B <= 2 ^ 50 * B) by (apply Z.mul_le_mono_nonneg_r; lia).
  generalize dependent (n * p * B). generalize dependent (n * b). intros. lia. Qed.

(** The number of addresses: the ceiling of the exact share, at most one more, and
    that only if the share is a whole number. *)
Lemma amount_near n p : 0 <= n < 2 ^ 53 -> 0 <= p < 2 ^ 53 -> n * p <= 2 ^ 50 ->
  exists count, corrupted_amount n (float_of_int p) = Ok count /\ share n p <= count <= share n p + 1 /\ (count <> share n p -> (n * p) mod 100 = 0).
Proof. intros Hn Hp S. unfold corrupted_amount, share.
  destruct (Z.eq_dec n 0) as [->|Nn].
  { assert (Z0 : SFltb (float_of_int 1) (fmul (float_of_int 0) (fdiv (float_of_int p) (float_of_int 100))) = false).
    { destruct (Z.eq_dec p 0) as [->|Np]; [vm_compute; reflexivity|]. destruct (div_100 p ltac:(lia)) as (m & e & E & _). rewrite E. reflexivity. }
    rewrite Z0. exists 1. split; [reflexivity|]. rewrite Z.mul_0_l. cbn. split; lia. }
  destruct (Z.eq_dec p 0) as [->|Np].
  { destruct (of_int_exact n ltac:(lia)) as (m & e & E & _). rewrite E. replace (fdiv (float_of_int 0) (float_of_int 100)) with (S754_zero false) by (vm_compute; reflexivity). cbn [fmul SFmul xorb].
    exists 1. split; [reflexivity|]. rewrite Z.mul_0_r. cbn. split; lia. }
  destruct (times_share n p ltac:(lia) ltac:(lia) S) as (m & e & E & M & R & V). rewrite E. clear E.
  assert (F1 : float_of_int 1 = S754_finite false (2 ^ 52) (-52)) by (vm_compute; reflexivity). rewrite F1.
  set (B := 2 ^ 200) in *. set (W := Zpos m * 2 ^ (e + 200)) in *. pose proof (Z.div_mod (n * p) 100 ltac:(lia)) as DM. pose proof (Z.mod_pos_bound (n * p) 100 ltac:(lia)) as MB.
  set (k := n * p / 100) in *. set (j := (n * p) mod 100) in *.
  assert (C : - (- (n * p) / 100) = if j =? 0 then k else k + 1). { destruct (Z.eqb_spec j 0) as [J|J]; enough (- (n * p) / 100 = - (if j =? 0 then k else k + 1)) by (destruct (Z.eqb_spec j 0); lia); symmetry; [apply (Z.div_unique _ _ _ 0)|apply (Z.div_unique _ _ _ (100 - j))]; destruct (Z.eqb_spec j 0); lia. }
  rewrite C. assert (PB : 0 < B) by (unfold B; lia).
  assert (Cmp : SFltb (S754_finite false (2 ^ 52) (-52)) (S754_finite false m e) = true <-> B < W).
  { unfold SFltb, SFcompare. destruct (Z.compare_spec (-52) e) as [X|X|X].
    - subst e. assert (W = Zpos m * 2 ^ 148) by reflexivity. assert (HB : B = 2 ^ 52 * 2 ^ 148) by reflexivity. change (Pcompare (2 ^ 52) m Eq) with (Pos.compare (2 ^ 52) m). destruct (Pos.compare_spec (2 ^ 52) m) as [Y|Y|Y]; split; intros Z0; try discriminate; try reflexivity; lia.
    - split; [intros _|reflexivity]. assert (A : 2 ^ 149 <= 2 ^ (e + 200)) by (apply Z.pow_le_mono_r; lia). assert (2 ^ 52 * 2 ^ 149 <= W) by (apply Z.mul_le_mono_nonneg; lia). assert (HB : B * 2 = 2 ^ 52 * 2 ^ 149) by reflexivity. lia.
    - split; [discriminate|]. intros Y. assert (A : 2 ^ (e + 200) <= 2 ^ 147) by (apply Z.pow_le_mono_r; lia). assert (W <= 2 ^ 53 * 2 ^ 147) by (apply Z.mul_le_mono_nonneg; lia). assert (HB : B = 2 ^ 53 * 2 ^ 147) by reflexivity. lia. }
  assert (Ce : forall c, float_ceil (S754_finite false m e) = Ok c -> (c - 1) * B < W <= c * B).
  { intros c Hc. cbn [float_ceil cond_Zopp] in Hc. assert (X : c = if 0 <=? e then Zpos m * 2 ^ e else - (- Zpos m / 2 ^ (- e))) by congruence. clear Hc. destruct (Z.leb_spec 0 e) as [L|L].
    - unfold W, B. rewrite Z.pow_add_r by lia. subst c. fold B. rewrite Z.mul_assoc. lia.
    - pose proof (Z.div_mod (- Zpos m) (2 ^ (- e)) ltac:(apply Z.pow_nonzero; lia)) as D1. pose proof (Z.mod_pos_bound (- Zpos m) (2 ^ (- e)) ltac:(apply Z.pow_pos_nonneg; lia)) as D2.
      assert (HB : B = 2 ^ (- e) * 2 ^ (e + 200)) by (unfold B; rewrite <- Z.pow_add_r by lia; f_equal; lia). unfold W. rewrite HB. assert (0 < 2 ^ (e + 200)) by (apply Z.pow_pos_nonneg; lia).
      rewrite !Z.mul_assoc. split; [apply Z.mul_lt_mono_pos_r; lia|apply Z.mul_le_mono_nonneg_r; lia]. }
  assert (Ex : exists c, float_ceil (S754_finite false m e) = Ok c) by (eexists; reflexivity). destruct Ex as [c Hc]. specialize (Ce c Hc). rewrite Hc. clear Hc.
  clearbody B W. clear C.
  assert (G : (if j =? 0 then k else k + 1) <= c <= (if j =? 0 then k + 1 else k + 1)).
  { destruct (Z.eqb_spec j 0) as [J|J].
    - replace (n * p) with (100 * k) in V by lia. split.
      + apply Z.nlt_ge. intros L. assert (c * B <= (k - 1) * B) by (apply Z.mul_le_mono_nonneg_r; lia). lia.
      + apply Z.nlt_ge. intros L. assert ((k + 1) * B <= (c - 1) * B) by (apply Z.mul_le_mono_nonneg_r; lia). lia.
    - assert (V1 : n * p * B <= (100 * k + 99) * B) by (apply Z.mul_le_mono_nonneg_r; lia). assert (V2 : (100 * k + 1) * B <= n * p * B) by (apply Z.mul_le_mono_nonneg_r; lia). split.
      + apply Z.nlt_ge. intros L. assert (c * B <= k * B) by (apply Z.mul_le_mono_nonneg_r; lia). lia.
      + apply Z.nlt_ge. intros L. assert ((k + 1) * B <= (c - 1) * B) by (apply Z.mul_le_mono_nonneg_r; lia). lia. }
  destruct (SFltb (S754_finite false (2 ^ 52) (-52)) (S754_finite false m e)) eqn:Lt.
  - assert (B < W) by (apply Cmp; reflexivity). assert (1 < c) by (apply Z.nle_gt; intros L; assert (c * B <= 1 * B) by (apply Z.mul_le_mono_nonneg_r; lia); lia).
    exists c. split; [reflexivity|]. destruct (Z.eqb_spec j 0); split; lia.
  - assert (W <= B) by (apply Z.nlt_ge; intros L; apply Cmp in L; discriminate). assert (c <= 1) by (apply Z.nlt_ge; intros L; assert (1 * B <= (c - 1) * B) by (apply Z.mul_le_mono_nonneg_r; lia); lia).
    exists 1. split; [reflexivity|]. destruct (Z.eqb_spec j 0); split; lia. Qed.
