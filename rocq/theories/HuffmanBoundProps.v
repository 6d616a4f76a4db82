(** C175: the size computed for a text against the entropy of its symbols. *)
From Verif Require Import ListLemmas HuffmanModel HuffmanSpec HuffmanProofs HuffmanProps ScriptProps HuffmanMoveProps.
From Coq Require Import ZifyBool ZifyNat Permutation Reals Lra.

(** How often the symbols occur altogether. *)
Definition occurring (freq : dict Z) : Z := fold_right (fun sw n => snd sw + n) 0 freq.
(** Shannon's bound for the whole text: a symbol that occurs [w] times out of [n] carries
    [log2 (n / w)] bits each time; symbols that do not occur carry nothing. *)
Definition bits_carried (n w : Z) : R := (IZR w * (ln (IZR n / IZR w) / ln 2))%R.
Definition entropy (freq : dict Z) : R := fold_right (fun sw r => (bits_carried (occurring freq) (snd sw) + r)%R) 0%R freq.

(** ** Proofs *)
Definition zsum (l : list Z) : Z := fold_right Z.add 0 l.
Definition carried_sum (n : Z) (l : list Z) : R := fold_right (fun w r => (bits_carried n w + r)%R) 0%R l.
Lemma ln2_pos : (0 < ln 2)%R. Proof. rewrite <- ln_1. apply ln_increasing; lra. Qed.
Lemma ln_pow l : 0 <= l -> ln (IZR (2 ^ l)) = (IZR l * ln 2)%R.
Proof. revert l. apply natlike_ind; [change (2 ^ 0)%Z with 1%Z; rewrite ln_1; ring|]. intros l L IH. rewrite Z.pow_succ_r by exact L. rewrite mult_IZR, ln_mult, IH; [rewrite succ_IZR; ring|lra|]. apply IZR_lt, Z.pow_pos_nonneg; lia. Qed.
Lemma pow_split m l : 0 <= l <= m -> (IZR (2 ^ (m - l)) = IZR (2 ^ m) / IZR (2 ^ l))%R.
Proof. intros L. assert (P : (0 < IZR (2 ^ l))%R) by (apply IZR_lt, Z.pow_pos_nonneg; lia). replace (2 ^ m)%Z with (2 ^ (m - l) * 2 ^ l)%Z by (rewrite <- Z.pow_add_r by lia; f_equal; lia). rewrite mult_IZR. field. lra. Qed.
Lemma ln_below x : (0 < x)%R -> (ln x <= x - 1)%R.
Proof. intros P. pose proof (exp_ineq1_le (ln x)) as H. rewrite exp_ln in H by exact P. lra. Qed.
(** No lengths that satisfy Kraft's inequality are below the entropy. *)
Lemma lower_one n w l m : 0 < n -> 0 <= w -> 0 <= l <= m -> (bits_carried n w * ln 2 <= IZR (w * l) * ln 2 + IZR n * IZR (2 ^ (m - l)) / IZR (2 ^ m) - IZR w)%R.
Proof. intros N W L. unfold bits_carried. pose proof ln2_pos as L2. assert (P : (0 < IZR (2 ^ l))%R) by (apply IZR_lt, Z.pow_pos_nonneg; lia). assert (Pm : (0 < IZR (2 ^ m))%R) by (apply IZR_lt, Z.pow_pos_nonneg; lia). assert (Pn : (0 < IZR n)%R) by (apply IZR_lt, N).
  rewrite (pow_split m l L). destruct (Z.eq_dec w 0) as [->|Nw].
  - rewrite Z.mul_0_l. assert (0 <= IZR n * (IZR (2 ^ m) / IZR (2 ^ l)) / IZR (2 ^ m))%R; [|lra]. replace (IZR n * (IZR (2 ^ m) / IZR (2 ^ l)) / IZR (2 ^ m))%R with (IZR n / IZR (2 ^ l))%R by (field; lra). apply Rlt_le, Rdiv_lt_0_compat; assumption.
  - assert (Pw : (0 < IZR w)%R) by (apply IZR_lt; lia). replace (IZR n * (IZR (2 ^ m) / IZR (2 ^ l)) / IZR (2 ^ m))%R with (IZR w * (IZR n / IZR w / IZR (2 ^ l)))%R by (field; lra).
    replace (IZR w * (ln (IZR n / IZR w) / ln 2) * ln 2)%R with (IZR w * ln (IZR n / IZR w))%R by (field; lra).
    assert (Q : (0 < IZR n / IZR w)%R) by (apply Rdiv_lt_0_compat; assumption). pose proof (ln_below (IZR n / IZR w / IZR (2 ^ l)) ltac:(apply Rdiv_lt_0_compat; assumption)) as B.
    unfold Rdiv at 1 in B. rewrite ln_mult, ln_Rinv, ln_pow in B; [|lia|assumption|assumption|apply Rinv_0_lt_compat; assumption]. rewrite mult_IZR. apply Rmult_le_compat_l with (r := IZR w) in B; lra. Qed.
Lemma lower n m : 0 < n -> forall ps, (forall p, In p ps -> 0 <= fst p /\ 0 <= snd p <= m) ->
  (carried_sum n (map fst ps) * ln 2 <= IZR (dot ps) * ln 2 + IZR n * IZR (lsum m (map snd ps)) / IZR (2 ^ m) - IZR (zsum (map fst ps)))%R.
Proof. intros N. induction ps as [|[w l] ps IH]; intros H.
  - cbn. lra.
  - specialize (IH (fun p I => H p (or_intror I))). destruct (H (w, l) (or_introl eq_refl)) as [Hw Hl]. cbn [fst snd] in *. pose proof (lower_one n w l m N Hw Hl) as O.
    change (carried_sum n (map fst ((w, l) :: ps))) with (bits_carried n w + carried_sum n (map fst ps))%R. change (dot ((w, l) :: ps)) with (w * l + dot ps). change (lsum m (map snd ((w, l) :: ps))) with (2 ^ (m - l) + lsum m (map snd ps)). change (zsum (map fst ((w, l) :: ps))) with (w + zsum (map fst ps)).
    rewrite !plus_IZR. assert (Pm : (0 < IZR (2 ^ m))%R) by (apply IZR_lt, Z.pow_pos_nonneg; lia). unfold Rdiv in *. rewrite !Rmult_plus_distr_l, !Rmult_plus_distr_r. lra. Qed.
(** Lengths one bit above it. *)
Lemma least_pow w t : 0 < w -> exists l, 0 <= l /\ t <= w * 2 ^ l /\ (l = 0 \/ w * 2 ^ (l - 1) < t).
Proof. intros W. destruct (Z.le_gt_cases t w) as [L|G]; [exists 0; split; [lia|]; split; [lia|auto]|].
  assert (H : forall k : nat, t <= w * 2 ^ Z.of_nat k -> exists l, 0 <= l /\ t <= w * 2 ^ l /\ (l = 0 \/ w * 2 ^ (l - 1) < t)).
  { induction k as [|k IH]; intros B; [exists 0; auto with zarith|]. destruct (Z.le_gt_cases t (w * 2 ^ Z.of_nat k)) as [L|G']; [exact (IH L)|]. exists (Z.of_nat (S k)). split; [lia|]. split; [exact B|]. right. replace (Z.of_nat (S k) - 1) with (Z.of_nat k) by lia. exact G'. }
  apply (H (Z.to_nat t)). rewrite Z2Nat.id by lia. pose proof (Z.pow_gt_lin_r 2 t). nia. Qed.
Lemma upper_one n w l : 0 < w <= n -> 0 <= l -> (l = 0 \/ w * 2 ^ (l - 1) <= n) -> (IZR (w * l) <= bits_carried n w + IZR w)%R.
Proof. intros W L H. unfold bits_carried. pose proof ln2_pos as L2. assert (Pw : (0 < IZR w)%R) by (apply IZR_lt; lia). assert (Pn : (IZR w <= IZR n)%R) by (apply IZR_le; lia).
  assert (X : (IZR l <= ln (IZR n / IZR w) / ln 2 + 1)%R).
  { apply Rmult_le_reg_r with (ln 2); [exact L2|]. replace ((ln (IZR n / IZR w) / ln 2 + 1) * ln 2)%R with (ln (IZR n / IZR w) + ln 2)%R by (field; lra). destruct H as [->|H].
    - assert (0 <= ln (IZR n / IZR w))%R; [|lra]. rewrite <- ln_1. destruct (Req_dec (IZR n) (IZR w)) as [->|Ne]; [right; f_equal; field; lra|]. left. apply ln_increasing; [lra|]. apply Rmult_lt_reg_r with (IZR w); [exact Pw|]. unfold Rdiv. rewrite Rmult_assoc, Rinv_l by lra. lra.
    - destruct (Z.eq_dec l 0) as [->|Nl]; [|].
      + assert (0 <= ln (IZR n / IZR w))%R; [|lra]. rewrite <- ln_1. destruct (Req_dec (IZR n) (IZR w)) as [->|Ne]; [right; f_equal; field; lra|]. left. apply ln_increasing; [lra|]. apply Rmult_lt_reg_r with (IZR w); [exact Pw|]. unfold Rdiv. rewrite Rmult_assoc, Rinv_l by lra. lra.
      + assert (P : (0 < IZR (2 ^ (l - 1)))%R) by (apply IZR_lt, Z.pow_pos_nonneg; lia). assert (Q : (IZR (2 ^ (l - 1)) <= IZR n / IZR w)%R). { apply IZR_le in H. rewrite mult_IZR in H. apply Rmult_le_reg_r with (IZR w); [exact Pw|]. unfold Rdiv. rewrite Rmult_assoc, Rinv_l by lra. lra. }
        assert (Y : (ln (IZR (2 ^ (l - 1))) <= ln (IZR n / IZR w))%R) by (destruct Q as [Q|Q]; [left; apply ln_increasing; assumption|right; now rewrite Q]). rewrite ln_pow, minus_IZR in Y by lia. lra. }
  rewrite mult_IZR. apply Rmult_le_compat_l with (r := IZR w) in X; lra. Qed.
Lemma upper_one_strict n w l : 0 < w <= n -> 0 <= l -> (l = 0 \/ w * 2 ^ (l - 1) < n) -> (IZR (w * l) < bits_carried n w + IZR w)%R.
Proof. intros W L H. unfold bits_carried. pose proof ln2_pos as L2. assert (Pw : (0 < IZR w)%R) by (apply IZR_lt; lia). assert (Pn : (IZR w <= IZR n)%R) by (apply IZR_le; lia).
  assert (X : (IZR l < ln (IZR n / IZR w) / ln 2 + 1)%R).
  { apply Rmult_lt_reg_r with (ln 2); [exact L2|]. replace ((ln (IZR n / IZR w) / ln 2 + 1) * ln 2)%R with (ln (IZR n / IZR w) + ln 2)%R by (field; lra). assert (Z0 : (0 <= ln (IZR n / IZR w))%R).
    { rewrite <- ln_1. destruct (Req_dec (IZR n) (IZR w)) as [->|Ne]; [right; f_equal; field; lra|]. left. apply ln_increasing; [lra|]. apply Rmult_lt_reg_r with (IZR w); [exact Pw|]. unfold Rdiv. rewrite Rmult_assoc, Rinv_l by lra. lra. }
    destruct (Z.eq_dec l 0) as [->|Nl]; [lra|]. destruct H as [H|H]; [contradiction|].
    assert (P : (0 < IZR (2 ^ (l - 1)))%R) by (apply IZR_lt, Z.pow_pos_nonneg; lia). assert (Q : (IZR (2 ^ (l - 1)) < IZR n / IZR w)%R). { apply IZR_lt in H. rewrite mult_IZR in H. apply Rmult_lt_reg_r with (IZR w); [exact Pw|]. unfold Rdiv. rewrite Rmult_assoc, Rinv_l by lra. lra. }
    assert (Y : (ln (IZR (2 ^ (l - 1))) < ln (IZR n / IZR w))%R) by (apply ln_increasing; assumption). rewrite ln_pow, minus_IZR in Y by lia. lra. }
  rewrite mult_IZR. apply Rmult_lt_compat_l with (r := IZR w) in X; lra. Qed.
Lemma choose (P : Z -> Z -> Prop) ws : (forall w, In w ws -> exists l, P w l) -> exists ps, map fst ps = ws /\ forall p, In p ps -> P (fst p) (snd p).
Proof. induction ws as [|w ws IH]; intros H; [exists []; split; [reflexivity|intros p []]|]. destruct (H w (or_introl eq_refl)) as (l & Pl). destruct (IH (fun x I => H x (or_intror I))) as (ps & E & F). exists ((w, l) :: ps). split; [cbn [map fst]; congruence|]. intros p [<-|I]; [exact Pl|apply F, I]. Qed.
Lemma longest (ps : list (Z * Z)) : exists m, 0 <= m /\ forall p, In p ps -> snd p <= m.
Proof. induction ps as [|p ps (m & M & H)]; [exists 0; split; [lia|intros p []]|]. exists (Z.max m (snd p)). split; [lia|]. intros q [<-|I]; [lia|]. specialize (H q I). lia. Qed.
Lemma in_zsum w ws : (forall x, In x ws -> 0 <= x) -> In w ws -> w <= zsum ws.
Proof. induction ws as [|x ws IH]; intros N I; [destruct I|]. assert (0 <= zsum ws). { clear - N. induction ws as [|y ws IH]; [cbn; lia|]. change (zsum (y :: ws)) with (y + zsum ws). pose proof (N y ltac:(right; left; reflexivity)). assert (0 <= zsum ws); [|lia]. apply IH. intros z [<-|Z]; apply N; [left; reflexivity|right; right; exact Z]. }
  change (zsum (x :: ws)) with (x + zsum ws). destruct I as [->|I]; [lia|]. pose proof (N x ltac:(left; reflexivity)). specialize (IH (fun y Y => N y (or_intror Y)) I). lia. Qed.
(** The sum of Kraft's inequality, when each length is bounded on its own. *)
Lemma lsum_bound a b c m ps : (forall p, In p ps -> a * 2 ^ (m - snd p) <= b * fst p * 2 ^ m + c) -> a * lsum m (map snd ps) <= b * zsum (map fst ps) * 2 ^ m + c * Z.of_nat (length ps).
Proof. induction ps as [|p ps IH]; intros H; [cbn; lia|]. specialize (IH (fun q I => H q (or_intror I))). pose proof (H p (or_introl eq_refl)) as Hp. change (lsum m (map snd (p :: ps))) with (2 ^ (m - snd p) + lsum m (map snd ps)). change (zsum (map fst (p :: ps))) with (fst p + zsum (map fst ps)). cbn [length]. rewrite Nat2Z.inj_succ. nia. Qed.
Lemma dot_upper n ps : (forall p, In p ps -> (IZR (fst p * snd p) <= bits_carried n (fst p) + IZR (fst p))%R) -> (IZR (dot ps) <= carried_sum n (map fst ps) + IZR (zsum (map fst ps)))%R.
Proof. induction ps as [|p ps IH]; intros H; [cbn; lra|]. specialize (IH (fun q I => H q (or_intror I))). pose proof (H p (or_introl eq_refl)) as Hp. change (dot (p :: ps)) with (fst p * snd p + dot ps). change (carried_sum n (map fst (p :: ps))) with (bits_carried n (fst p) + carried_sum n (map fst ps))%R. change (zsum (map fst (p :: ps))) with (fst p + zsum (map fst ps)). rewrite (plus_IZR (fst p * snd p)), (plus_IZR (fst p)). lra. Qed.
Lemma dot_upper_strict n ps : ps <> [] -> (forall p, In p ps -> (IZR (fst p * snd p) < bits_carried n (fst p) + IZR (fst p))%R) -> (IZR (dot ps) < carried_sum n (map fst ps) + IZR (zsum (map fst ps)))%R.
Proof. destruct ps as [|p ps]; intros Ne H; [congruence|]. pose proof (H p (or_introl eq_refl)) as Hp. pose proof (dot_upper n ps (fun q I => Rlt_le _ _ (H q (or_intror I)))) as Hr. change (dot (p :: ps)) with (fst p * snd p + dot ps). change (carried_sum n (map fst (p :: ps))) with (bits_carried n (fst p) + carried_sum n (map fst ps))%R. change (zsum (map fst (p :: ps))) with (fst p + zsum (map fst ps)). rewrite (plus_IZR (fst p * snd p)), (plus_IZR (fst p)). lra. Qed.
Lemma room a b l m t : 0 <= l <= m -> t <= a * 2 ^ l -> b = a * 2 ^ m -> t * 2 ^ (m - l) <= b.
Proof. intros L H ->. replace (2 ^ m) with (2 ^ l * 2 ^ (m - l)) by (rewrite <- Z.pow_add_r by lia; f_equal; lia). assert (0 < 2 ^ (m - l)) by (apply Z.pow_pos_nonneg; lia). nia. Qed.
Lemma upper ws h : merges ws h -> (forall w, In w ws -> 0 <= w) -> 0 < zsum ws -> (IZR h <= carried_sum (zsum ws) ws + IZR (zsum ws))%R.
Proof. intros Mg Nn P. set (n := zsum ws) in *. set (k := Z.of_nat (length ws)).
  assert (Pk : 0 < k) by (unfold k; destruct ws; [cbn in P; lia|cbn [length]; lia]).
  destruct (least_pow 1 ((n + 1) * k) ltac:(lia)) as (big & B0 & B1 & _).
  destruct (choose (fun w l => 0 <= l /\ (w = 0 -> l = big) /\ (0 < w -> n + 1 <= w * 2 ^ l /\ (l = 0 \/ w * 2 ^ (l - 1) < n + 1))) ws) as (ps & E & H).
  { intros w I. specialize (Nn w I). destruct (Z.eq_dec w 0) as [->|Nw]; [exists big; split; [exact B0|split; [auto|lia]]|]. destruct (least_pow w (n + 1) ltac:(lia)) as (l & L0 & L1 & L2). exists l. split; [exact L0|]. split; [lia|auto]. }
  destruct (longest ps) as (m & M0 & M). assert (Hd : h <= dot ps).
  { apply (huffman_optimal ws h Mg Nn ps m); [rewrite E; reflexivity| |].
    - intros l I. apply in_map_iff in I. destruct I as (p & <- & I). split; [apply (H p I)|apply M, I].
    - assert (B : ((n + 1) * k) * lsum m (map snd ps) <= k * zsum (map fst ps) * 2 ^ m + 2 ^ m * Z.of_nat (length ps)).
      { apply lsum_bound. intros p I. destruct (H p I) as (H0 & H1 & H2). pose proof (M p I) as Hm. assert (Pm : 0 < 2 ^ m) by (apply Z.pow_pos_nonneg; lia). assert (In (fst p) ws) as Iw by (rewrite <- E; apply in_map, I). specialize (Nn _ Iw). destruct (Z.eq_dec (fst p) 0) as [Ew|Nw].
        - rewrite Ew. rewrite (H1 Ew) in *. assert ((n + 1) * k * 2 ^ (m - big) <= 1 * 2 ^ m); [|lia]. apply (room 1 _ big m); [lia|exact B1|reflexivity].
        - destruct (H2 ltac:(lia)) as [H3 _]. pose proof (room (fst p) _ (snd p) m (n + 1) ltac:(lia) H3 eq_refl) as R. nia. }
      assert (Lk : Z.of_nat (length ps) = k) by (unfold k; rewrite <- E, map_length; reflexivity). rewrite E, Lk in B. fold n in B. nia. }
  apply Rle_trans with (IZR (dot ps)); [apply IZR_le, Hd|]. rewrite <- E at 1. replace n with (zsum (map fst ps)) at 2 by (rewrite E; reflexivity). apply dot_upper. intros p I. destruct (H p I) as (H0 & H1 & H2). assert (In (fst p) ws) as Iw by (rewrite <- E; apply in_map, I). pose proof (in_zsum _ _ Nn Iw) as Le. fold n in Le. specialize (Nn _ Iw).
  destruct (Z.eq_dec (fst p) 0) as [Ew|Nw]; [rewrite Ew; unfold bits_carried; cbn [Z.mul]; lra|]. destruct (H2 ltac:(lia)) as [_ H3]. apply upper_one; [lia|exact H0|]. destruct H3 as [H3|H3]; [left; exact H3|right; lia]. Qed.
Lemma upper_strict ws h : merges ws h -> (forall w, In w ws -> 0 < w) -> 0 < zsum ws -> (IZR h < carried_sum (zsum ws) ws + IZR (zsum ws))%R.
Proof. intros Mg Np P. set (n := zsum ws) in *. assert (Nn : forall w, In w ws -> 0 <= w) by (intros w I; specialize (Np w I); lia).
  destruct (choose (fun w l => 0 <= l /\ n <= w * 2 ^ l /\ (l = 0 \/ w * 2 ^ (l - 1) < n)) ws) as (ps & E & H).
  { intros w I. apply least_pow, Np, I. }
  destruct (longest ps) as (m & M0 & M). assert (Hd : h <= dot ps).
  { apply (huffman_optimal ws h Mg Nn ps m); [rewrite E; reflexivity| |].
    - intros l I. apply in_map_iff in I. destruct I as (p & <- & I). split; [apply (H p I)|apply M, I].
    - assert (B : n * lsum m (map snd ps) <= 1 * zsum (map fst ps) * 2 ^ m + 0 * Z.of_nat (length ps)).
      { apply lsum_bound. intros p I. destruct (H p I) as (H0 & H1 & _). pose proof (M p I) as Hm. pose proof (room (fst p) _ (snd p) m n ltac:(lia) H1 eq_refl) as R. lia. }
      rewrite E in B. fold n in B. nia. }
  apply Rle_lt_trans with (IZR (dot ps)); [apply IZR_le, Hd|]. rewrite <- E at 1. replace n with (zsum (map fst ps)) at 2 by (rewrite E; reflexivity). apply dot_upper_strict; [intros X; rewrite X in E; cbn in E; subst ws; cbn in P; lia|]. intros p I. destruct (H p I) as (H0 & H1 & H2). assert (In (fst p) ws) as Iw by (rewrite <- E; apply in_map, I). pose proof (in_zsum _ _ Nn Iw) as Le. fold n in Le. specialize (Np _ Iw). apply upper_one_strict; [lia|exact H0|exact H2]. Qed.
Lemma weights_listed freq : NoDup (dkeys freq) -> map (weight freq) (dkeys freq) = map snd freq.
Proof. intros N. unfold dkeys. rewrite map_map. apply map_ext_in. intros [s w] I. unfold weight. cbn [fst snd]. rewrite (dget_nodup_in freq s w N I). reflexivity. Qed.
Lemma occurring_zsum freq : occurring freq = zsum (map snd freq).
Proof. unfold occurring, zsum. induction freq as [|sw freq IH]; [reflexivity|]. cbn [map fold_right]. rewrite IH. reflexivity. Qed.
Lemma entropy_sum freq : entropy freq = carried_sum (occurring freq) (map snd freq).
Proof. unfold entropy. generalize (occurring freq). intros n. unfold carried_sum. induction freq as [|sw freq IH]; [reflexivity|]. cbn [map fold_right]. rewrite IH. reflexivity. Qed.

(** No prefix code does better than the entropy, so neither does the computed one; and the
    computed size is above it by at most one bit for every symbol of the text, less than that
    if every listed symbol occurs. *)
Theorem C175_any_code : forall freq c, NoDup (dkeys freq) -> (forall s w, In (s, w) freq -> 0 <= w) -> 0 < occurring freq -> prefix_free (dkeys freq) c ->
  (entropy freq <= IZR (total_length (dkeys freq) (weight freq) c))%R.
Proof.
  intros freq c Nd Nn P Pf. rewrite entropy_sum, occurring_zsum in *. rewrite <- (weights_listed freq Nd) in *. set (ps := map (fun s => (weight freq s, len (c s))) (dkeys freq)).
  assert (D : total_length (dkeys freq) (weight freq) c = dot ps). { unfold ps. clear. unfold total_length, dot, len. induction (dkeys freq) as [|s l IH]; cbn [map fold_right fst snd]; [reflexivity|]. rewrite IH. reflexivity. }
  assert (E1 : map fst ps = map (weight freq) (dkeys freq)) by (unfold ps; rewrite map_map; reflexivity). assert (E2 : map snd ps = map len (map c (dkeys freq))) by (unfold ps; rewrite !map_map; reflexivity).
  set (m := fold_right Nat.max 0%nat (map (fun s => length (c s)) (dkeys freq))).
  assert (Hm : forall s, In s (dkeys freq) -> (length (c s) <= m)%nat). { unfold m. clear. induction (dkeys freq) as [|s l IH]; intros u []; cbn [map fold_right]; [subst; lia|]. specialize (IH u H). lia. }
  assert (K : lsum (Z.of_nat m) (map snd ps) <= 2 ^ Z.of_nat m). { rewrite E2. apply kraft_le; [apply prefix_free_pairs; assumption|]. intros d I. apply in_map_iff in I. destruct I as (s & <- & I). apply Hm, I. }
  rewrite D, <- E1 in *. set (n := zsum (map fst ps)) in *.
  pose proof (lower n (Z.of_nat m) P ps) as L. assert (Pm : (0 < IZR (2 ^ Z.of_nat m))%R) by (apply IZR_lt, Z.pow_pos_nonneg; lia). pose proof ln2_pos as L2.
  assert (X : (IZR n * IZR (lsum (Z.of_nat m) (map snd ps)) / IZR (2 ^ Z.of_nat m) <= IZR n)%R).
  { apply Rmult_le_reg_r with (IZR (2 ^ Z.of_nat m)); [exact Pm|]. unfold Rdiv. rewrite Rmult_assoc, Rinv_l, Rmult_1_r by lra. apply Rmult_le_compat_l; [apply IZR_le; lia|apply IZR_le, K]. }
  apply Rmult_le_reg_r with (ln 2); [exact L2|]. eapply Rle_trans; [apply L|fold n; lra].
  intros p I. unfold ps in I. apply in_map_iff in I. destruct I as (s & <- & I). cbn [fst snd]. split; [|specialize (Hm s I); unfold len; lia]. unfold dkeys in I. apply in_map_iff in I. destruct I as ([s' w] & Es & I). cbn in Es. subst s'. unfold weight. rewrite (dget_nodup_in freq s w Nd I). eapply Nn, I.
Qed.
Print Assumptions C175_any_code.
Theorem C175_entropy : forall freq, NoDup (dkeys freq) -> (forall s w, In (s, w) freq -> 0 <= w) -> 0 < occurring freq ->
  exists n, huffman_size freq None = Ok n /\ (entropy freq <= IZR n <= entropy freq + IZR (occurring freq))%R /\
    ((forall s w, In (s, w) freq -> 0 < w) -> (IZR n < entropy freq + IZR (occurring freq))%R).
Proof.
  intros freq Nd Nn P. assert (Ne : freq <> []) by (intros ->; cbn in P; lia).
  assert (Nn' : forall s w, dget freq s = Some w -> 0 <= w) by (intros s w G; apply dget_in in G; eapply Nn, G).
  destruct (C58_optimal freq Nd Ne Nn') as (ps & n & E & Sz & Tl & _). exists n. split; [exact Sz|].
  pose proof (C57_prefix_code freq Nd) as Pc. rewrite E in Pc. destruct Pc as (_ & _ & Pf & _).
  destruct (encode_tree freq Nd Ne) as (ps' & t & h & E' & Pt & Ps & Mg & Ct). assert (ps' = ps) as -> by congruence.
  assert (Np : NoDup (dkeys ps)) by (eapply Permutation_NoDup; [exact Ps|exact Nd]).
  assert (n = h) as <-. { rewrite Tl, (total_perm _ _ _ _ Ps), <- Ct. apply total_cost; [exact Np|apply incl_refl]. }
  rewrite (weights_listed freq Nd) in Mg. assert (Ps' : 0 < zsum (map snd freq)) by (rewrite <- occurring_zsum; exact P).
  split; [split|].
  - rewrite Tl. apply C175_any_code; assumption.
  - rewrite entropy_sum, occurring_zsum. apply upper; [exact Mg| |exact Ps']. intros w I. apply in_map_iff in I. destruct I as ([s w'] & <- & I). eapply Nn, I.
  - intros Pos. rewrite entropy_sum, occurring_zsum. apply upper_strict; [exact Mg| |exact Ps']. intros w I. apply in_map_iff in I. destruct I as ([s w'] & <- & I). eapply Pos, I.
Qed.
Print Assumptions C175_entropy.
(** The same for a program: the entropy of its parts, taken over all their occurrences. *)
Definition text_entropy (parts : list Z) : R :=
  fold_right (fun p r => (ln (INR (length parts) / INR (count_occ Z.eq_dec parts p)) / ln 2 + r)%R) 0%R parts.
Lemma rsum_add (f : Z -> R) (g : Z -> nat) x syms : NoDup syms -> In x syms ->
  fold_right (fun s r => (INR (g s + (if Z.eq_dec x s then 1 else 0)) * f s + r)%R) 0%R syms = (f x + fold_right (fun s r => (INR (g s) * f s + r)%R) 0%R syms)%R.
Proof. intros N. induction N as [|s syms Hs N IH]; intros I; [destruct I|]. cbn [fold_right]. rewrite plus_INR. destruct (Z.eq_dec x s) as [->|E].
  - assert (X : fold_right (fun t r => (INR (g t + (if Z.eq_dec s t then 1 else 0)) * f t + r)%R) 0%R syms = fold_right (fun t r => (INR (g t) * f t + r)%R) 0%R syms).
    { clear - Hs. induction syms as [|y syms IH]; [reflexivity|]. cbn [fold_right]. rewrite IH by (intros X; apply Hs; right; exact X). destruct (Z.eq_dec s y) as [->|_]; [exfalso; apply Hs; left; reflexivity|]. rewrite Nat.add_0_r. reflexivity. }
    rewrite X. cbn [INR]. ring.
  - destruct I as [I|I]; [congruence|]. rewrite (IH I). cbn [INR]. ring. Qed.
Lemma rsum_count (f : Z -> R) syms : NoDup syms -> forall seq, incl seq syms -> fold_right (fun s r => (INR (count_occ Z.eq_dec seq s) * f s + r)%R) 0%R syms = fold_right (fun p r => (f p + r)%R) 0%R seq.
Proof. intros N. induction seq as [|x seq IH]; intros I.
  - cbn [count_occ fold_right INR]. clear. induction syms as [|s syms IH]; [reflexivity|]. cbn [fold_right]. rewrite IH. ring.
  - cbn [fold_right]. rewrite <- IH by (intros y Y; apply I; right; exact Y). rewrite <- (rsum_add f (count_occ Z.eq_dec seq) x syms N) by (apply I; left; reflexivity).
    clear. induction syms as [|s syms IH]; [reflexivity|]. cbn [fold_right]. rewrite IH. f_equal. f_equal. cbn [count_occ]. destruct (Z.eq_dec x s); [rewrite Nat.add_comm; reflexivity|rewrite Nat.add_0_r; reflexivity]. Qed.
Theorem C175_program : forall program x fields, (forall p, In p program -> x p = Ok (fields p)) -> flat_map fields program <> [] ->
  exists n, size_of program x = Ok n /\ (text_entropy (flat_map fields program) <= IZR n < text_entropy (flat_map fields program) + INR (length (flat_map fields program)))%R.
Proof.
  intros program x fields H Ne. destruct (C59_exact program x fields H) as (freq & w & E & Tf & _). pose proof (freq_info_nodup _ _ _ _ E) as N. set (seq := flat_map fields program) in *.
  assert (K : forall k, In k (dkeys freq) <-> In k seq). { intros k. rewrite dget_some_in, Tf. unfold occurrences. cbn zeta. rewrite (count_occ_In Z.eq_dec). destruct (Z.of_nat (count_occ Z.eq_dec seq k) =? 0) eqn:Z0; split; intros X; [destruct X; discriminate|lia|lia|eauto]. }
  assert (W : forall k, weight freq k = Z.of_nat (count_occ Z.eq_dec seq k)). { intros k. unfold weight. rewrite Tf. unfold occurrences. cbn zeta. destruct (Z.of_nat (count_occ Z.eq_dec seq k) =? 0) eqn:Z0; lia. }
  assert (T : occurring freq = Z.of_nat (length seq)).
  { transitivity (total_length (dkeys freq) (weight freq) (fun _ => [true])).
    - rewrite occurring_zsum, <- (weights_listed freq N). unfold total_length, zsum. clear. induction (dkeys freq) as [|s l IH]; [reflexivity|]. cbn [map fold_right]. rewrite IH. change (Z.of_nat (length [true])) with 1. ring.
    - rewrite (total_ext _ _ _ _ (fun s _ => W s)), (total_message (dkeys freq) _ N) by (intros y Y; apply K, Y). f_equal. clear. induction seq as [|y l IH]; [reflexivity|]. cbn [message flat_map app length]. unfold message in IH. rewrite IH. reflexivity. }
  assert (En : entropy freq = text_entropy seq).
  { rewrite entropy_sum, T, <- (weights_listed freq N). unfold text_entropy, carried_sum, bits_carried. etransitivity; [|apply (rsum_count (fun p => (ln (INR (length seq) / INR (count_occ Z.eq_dec seq p)) / ln 2)%R) (dkeys freq) N seq); intros y Y; apply K, Y].
    rewrite INR_IZR_INZ. cbn beta. clear - W. induction (dkeys freq) as [|s l IH]; [reflexivity|]. cbn [map fold_right]. rewrite IH, W, !INR_IZR_INZ. reflexivity. }
  assert (Pos : forall s v, In (s, v) freq -> 0 < v). { intros s v I. pose proof (dget_nodup_in freq s v N I) as G. rewrite Tf in G. unfold occurrences in G. cbn zeta in G. destruct (Z.of_nat (count_occ Z.eq_dec seq s) =? 0) eqn:Z0; [discriminate|]. injection G as <-. lia. }
  destruct (C175_entropy freq N) as (n & Sz & (Lo & _) & Up).
  { intros s v I. specialize (Pos s v I). lia. } { rewrite T. destruct seq; [congruence|cbn [length]; lia]. }
  exists n. split; [unfold size_of; rewrite E; exact Sz|]. rewrite INR_IZR_INZ, <- T, <- En. split; [exact Lo|exact (Up Pos)].
Qed.
Print Assumptions C175_program.
(** The lower bound is met by counts that are halves and quarters of the text, the upper one
    by a text of one symbol coded with a table that lists another. *)
Example C175_example : huffman_size [(0, 2); (1, 1); (2, 1)] None = Ok 6 /\ entropy [(0, 2); (1, 1); (2, 1)] = 6%R /\ huffman_size [(0, 1); (1, 0)] None = Ok 1 /\ entropy [(0, 1); (1, 0)] = 0%R.
Proof.
  split; [vm_compute; reflexivity|]. pose proof ln2_pos as L2. split; [|split; [vm_compute; reflexivity|]].
  - unfold entropy, bits_carried. cbn [fold_right occurring snd]. change (2 + (1 + (1 + 0)))%Z with 4%Z. replace (4 / 2)%R with 2%R by lra. replace (4 / 1)%R with (2 * 2)%R by lra. rewrite ln_mult by lra. field. lra.
  - unfold entropy, bits_carried. cbn [fold_right occurring snd]. change (1 + (0 + 0))%Z with 1%Z. replace (1 / 1)%R with 1%R by lra. rewrite ln_1. lra.
Qed.
Example C175_program_example : let fields := fun p => if p <? 3 then [0] else [p] in
  (forall p, In p [1; 2; 3; 4] -> Ok (fields p) = Ok (fields p)) /\ flat_map fields [1; 2; 3; 4] = [0; 0; 3; 4] /\ size_of [1; 2; 3; 4] (fun p => Ok (fields p)) = Ok 6 /\ text_entropy [0; 0; 3; 4] = 6%R.
Proof.
  cbn zeta. split; [reflexivity|]. split; [reflexivity|]. split; [vm_compute; reflexivity|]. pose proof ln2_pos as L2. unfold text_entropy. cbn.
  replace ((1 + 1 + 1 + 1) / (1 + 1))%R with 2%R by lra. replace ((1 + 1 + 1 + 1) / 1)%R with (2 * 2)%R by lra. rewrite ln_mult by lra. field. lra.
Qed.
