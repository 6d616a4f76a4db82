From Verif Require Import ListLemmas SPModel SPSpec.
From Coq Require Import Permutation ZifyBool ZifyNat.

Lemma pow2_pos' n : 0 <= n -> 0 < 2 ^ n.
Proof. intros. apply Z.pow_pos_nonneg; lia. Qed.
Lemma pow4_pos n : 0 <= n -> 0 < 4 ^ n.
Proof. intros. apply Z.pow_pos_nonneg; lia. Qed.
Lemma pow4_2 n : 0 <= n -> 4 ^ n = 2 ^ n * 2 ^ n.
Proof. intros. change 4 with (2 * 2). apply Z.pow_mul_l. Qed.

(** Quadrant digit. *)
Definition quad (j i : Z) : Z :=
  if (j =? 0) && (i =? 0) then 0 else if (j =? 0) && (i =? 1) then 2
  else if (j =? 1) && (i =? 0) then 3 else 1.

Fixpoint G (n : nat) (j i : Z) : Z :=
  match n with
  | O => 0
  | S n' => let w := 2 ^ Z.of_nat n' in 4 * G n' (j mod w) (i mod w) + quad (j / w) (i / w)
  end.

Lemma half_cases j w : 0 < w -> 0 <= j < 2 * w ->
  (j < w /\ j mod w = j /\ j / w = 0) \/ (w <= j /\ j mod w = j - w /\ j / w = 1).
Proof. intros Hw Hj. destruct (Z_lt_dec j w).
  - left. rewrite Z.mod_small, Z.div_small by lia. lia.
  - right. assert (E : j / w = 1) by (symmetry; apply Z.div_unique with (j - w); lia).
    assert (M : j mod w = j - w) by (symmetry; apply Z.mod_unique with 1; lia). lia. Qed.

Ltac bool_lit := repeat match goal with
  | |- context [?a <=? ?b] => (replace (a <=? b) with true by lia) || (replace (a <=? b) with false by lia)
  | |- context [?a <? ?b] => (replace (a <? b) with true by lia) || (replace (a <? b) with false by lia)
  end.

Lemma sp_step_val M n j i : 0 <= n -> 0 <= j < 2 * 2 ^ n -> 0 <= i < 2 * 2 ^ n ->
  sp_step M n j i = 4 * M (j mod 2 ^ n) (i mod 2 ^ n) + quad (j / 2 ^ n) (i / 2 ^ n).
Proof. intros Hn Hj Hi. unfold sp_step. pose proof (pow2_pos' n Hn) as Hw. set (w := 2 ^ n) in *.
  destruct (half_cases j w Hw Hj) as [(Lj & Mj & Dj)|(Lj & Mj & Dj)];
  destruct (half_cases i w Hw Hi) as [(Li & Mi & Di)|(Li & Mi & Di)];
  rewrite Mj, Dj, Mi, Di; unfold region_update; cbv beta; bool_lit; cbn [andb];
  unfold quad; cbn [Z.eqb andb Pos.eqb]; try ring. Qed.

Lemma G_range n : forall j i, 0 <= j < 2 ^ Z.of_nat n -> 0 <= i < 2 ^ Z.of_nat n -> 0 <= G n j i < 4 ^ Z.of_nat n.
Proof. induction n as [|n IH]; intros j i Hj Hi; [cbn; lia|]. cbn [G].
  pose proof (pow2_pos' (Z.of_nat n) ltac:(lia)) as Hw.
  specialize (IH (j mod 2 ^ Z.of_nat n) (i mod 2 ^ Z.of_nat n) (Z.mod_pos_bound _ _ Hw) (Z.mod_pos_bound _ _ Hw)).
  rewrite Nat2Z.inj_succ, Z.pow_succ_r by lia. unfold quad.
  destruct ((j / 2 ^ Z.of_nat n =? 0) && (i / 2 ^ Z.of_nat n =? 0)); [lia|].
  destruct ((j / 2 ^ Z.of_nat n =? 0) && (i / 2 ^ Z.of_nat n =? 1)); [lia|].
  destruct ((j / 2 ^ Z.of_nat n =? 1) && (i / 2 ^ Z.of_nat n =? 0)); lia. Qed.

Lemma quad_range j i : 0 <= quad j i < 4.
Proof. unfold quad. destruct ((j =? 0) && (i =? 0)); [lia|]. destruct ((j =? 0) && (i =? 1)); [lia|].
  destruct ((j =? 1) && (i =? 0)); lia. Qed.

Lemma quad_inj j i j' i' : 0 <= j <= 1 -> 0 <= i <= 1 -> 0 <= j' <= 1 -> 0 <= i' <= 1 ->
  quad j i = quad j' i' -> j = j' /\ i = i'.
Proof. intros. assert (j = 0 \/ j = 1) as [-> | ->] by lia; assert (i = 0 \/ i = 1) as [-> | ->] by lia;
  assert (j' = 0 \/ j' = 1) as [-> | ->] by lia; assert (i' = 0 \/ i' = 1) as [-> | ->] by lia;
  cbn in *; lia. Qed.

Lemma G_inj n : forall j i j' i',
  0 <= j < 2 ^ Z.of_nat n -> 0 <= i < 2 ^ Z.of_nat n -> 0 <= j' < 2 ^ Z.of_nat n -> 0 <= i' < 2 ^ Z.of_nat n ->
  G n j i = G n j' i' -> j = j' /\ i = i'.
Proof. induction n as [|n IH]; intros j i j' i' Hj Hi Hj' Hi' E.
  - cbn in *. lia.
  - cbn [G] in E. rewrite Nat2Z.inj_succ, Z.pow_succ_r in * by lia.
    pose proof (pow2_pos' (Z.of_nat n) ltac:(lia)) as Hw. set (w := 2 ^ Z.of_nat n) in *.
    pose proof (quad_range (j / w) (i / w)). pose proof (quad_range (j' / w) (i' / w)).
    assert (Eq : quad (j / w) (i / w) = quad (j' / w) (i' / w)) by lia.
    assert (Eg : G n (j mod w) (i mod w) = G n (j' mod w) (i' mod w)) by lia.
    apply IH in Eg; [|apply Z.mod_pos_bound; exact Hw..].
    apply quad_inj in Eq.
    + destruct Eg as [A B], Eq as [C D].
      rewrite (Z.div_mod j w), (Z.div_mod i w), (Z.div_mod j' w), (Z.div_mod i' w) by lia. split; congruence.
    + destruct (half_cases j w Hw Hj) as [(_ & _ & ->)|(_ & _ & ->)]; lia.
    + destruct (half_cases i w Hw Hi) as [(_ & _ & ->)|(_ & _ & ->)]; lia.
    + destruct (half_cases j' w Hw Hj') as [(_ & _ & ->)|(_ & _ & ->)]; lia.
    + destruct (half_cases i' w Hw Hi') as [(_ & _ & ->)|(_ & _ & ->)]; lia. Qed.

(** Top digits only depend on the low bits of the coordinates. *)
Lemma G_top n : forall k j i, (k <= n)%nat -> 0 <= j < 2 ^ Z.of_nat n -> 0 <= i < 2 ^ Z.of_nat n ->
  G n j i / 4 ^ (Z.of_nat n - Z.of_nat k) = G k (j mod 2 ^ Z.of_nat k) (i mod 2 ^ Z.of_nat k).
Proof. induction n as [|n IH]; intros k j i Hk Hj Hi.
  - assert (k = 0%nat) by lia. subst. cbn. reflexivity.
  - destruct (Nat.eq_dec k (S n)) as [->|N].
    + rewrite Z.sub_diag, Z.pow_0_r, Z.div_1_r, !Z.mod_small by lia. reflexivity.
    + cbn [G]. pose proof (pow2_pos' (Z.of_nat n) ltac:(lia)) as Hw. set (w := 2 ^ Z.of_nat n) in *.
      replace (Z.of_nat (S n) - Z.of_nat k) with (1 + (Z.of_nat n - Z.of_nat k)) by lia.
      rewrite Z.pow_add_r by lia. rewrite <- Z.div_div by (try apply pow4_pos; lia).
      pose proof (quad_range (j / w) (i / w)).
      replace ((4 * G n (j mod w) (i mod w) + quad (j / w) (i / w)) / 4 ^ 1) with (G n (j mod w) (i mod w))
        by (apply Z.div_unique with (quad (j / w) (i / w)); [left|]; lia).
      rewrite IH by (try lia; apply Z.mod_pos_bound; lia).
      assert (D : forall x, (x mod w) mod 2 ^ Z.of_nat k = x mod 2 ^ Z.of_nat k).
      { intros x. symmetry. apply Znumtheory.Zmod_div_mod; [apply pow2_pos'; lia|lia|].
        subst w. exists (2 ^ (Z.of_nat n - Z.of_nat k)). rewrite <- Z.pow_add_r by lia. f_equal; lia. }
      rewrite !D. reflexivity. Qed.

Lemma fold_sp n : forall j i, 0 <= j < 2 ^ Z.of_nat (S n) -> 0 <= i < 2 ^ Z.of_nat (S n) ->
  fold_left sp_step (zrange 1 (Z.of_nat (S n))) sp_base j i = G (S n) j i.
Proof. induction n as [|n IH]; intros j i Hj Hi.
  - cbn in Hj, Hi. assert (j = 0 \/ j = 1) as [-> | ->] by lia; assert (i = 0 \/ i = 1) as [-> | ->] by lia; reflexivity.
  - replace (Z.of_nat (S (S n))) with (Z.of_nat (S n) + 1) in * by lia.
    rewrite zrange_snoc, fold_left_app by lia. cbn [fold_left].
    rewrite Z.pow_add_r, Z.pow_1_r in Hj, Hi by lia.
    rewrite sp_step_val by lia. change (G (S (S n)) j i) with
      (4 * G (S n) (j mod 2 ^ Z.of_nat (S n)) (i mod 2 ^ Z.of_nat (S n)) + quad (j / 2 ^ Z.of_nat (S n)) (i / 2 ^ Z.of_nat (S n))).
    rewrite IH by (apply Z.mod_pos_bound, pow2_pos'; lia). reflexivity. Qed.

Lemma sp_rows m : 0 <= m -> sucesive_packing m = rows_of (G (Z.to_nat m)) (2 ^ m) (2 ^ m).
Proof. intros Hm. unfold sucesive_packing. destruct (m <=? 0) eqn:E.
  - assert (m = 0) by lia. subst. reflexivity.
  - unfold rows_of. apply map_ext_in. intros j Hj. apply map_ext_in. intros i Hi.
    apply in_zrange in Hj, Hi. replace (Z.to_nat m) with (S (Z.to_nat (m - 1))) by lia.
    rewrite <- fold_sp by (replace (Z.of_nat (S (Z.to_nat (m - 1)))) with m by lia; lia).
    f_equal; f_equal; lia. Qed.

Lemma sp_nonpos m : m <= 0 -> sucesive_packing m = [[0]].
Proof. intros. unfold sucesive_packing. replace (m <=? 0) with true by lia. reflexivity. Qed.

Lemma sp_shape m : 0 <= m ->
  Z.of_nat (length (sucesive_packing m)) = 2 ^ m /\
  Forall (fun r => Z.of_nat (length r) = 2 ^ m) (sucesive_packing m).
Proof. intros Hm. rewrite sp_rows by lia. pose proof (pow2_pos' m Hm). unfold rows_of. split.
  - rewrite map_length, zrange_length. lia.
  - apply Forall_forall. intros r Hr. apply in_map_iff in Hr. destruct Hr as (j & <- & _).
    rewrite map_length, zrange_length. lia. Qed.

(** An injective function from a square of side [s] into [0, s*s) is onto. *)
Lemma square_perm (f : Z * Z -> Z) s : 0 <= s ->
  (forall p, In p (list_prod (zrange 0 s) (zrange 0 s)) -> 0 <= f p < s * s) ->
  (forall p q, In p (list_prod (zrange 0 s) (zrange 0 s)) -> In q (list_prod (zrange 0 s) (zrange 0 s)) -> f p = f q -> p = q) ->
  Permutation (map f (list_prod (zrange 0 s) (zrange 0 s))) (zrange 0 (s * s)).
Proof. intros Hs Hr Hi. apply perm_zrange.
  - apply nodup_map_in; [apply nodup_list_prod; apply zrange_nodup|exact Hi].
  - intros x Hx. apply in_map_iff in Hx. destruct Hx as (p & <- & Hp). auto.
  - rewrite map_length, prod_length, zrange_length. nia. Qed.

Lemma sp_perm m : 0 <= m -> Permutation (concat (sucesive_packing m)) (zrange 0 (4 ^ m)).
Proof. intros Hm. rewrite sp_rows by lia. unfold rows_of. rewrite concat_rows, pow4_2 by lia.
  apply square_perm.
  - pose proof (pow2_pos' m Hm). lia.
  - intros [j i] Hp. apply in_prod_iff in Hp. rewrite !in_zrange in Hp. cbn [fst snd]. rewrite <- pow4_2 by lia.
    pose proof (G_range (Z.to_nat m) j i) as R. rewrite Z2Nat.id in R by lia. apply R; lia.
  - intros [j i] [j' i'] Hp Hq E. apply in_prod_iff in Hp, Hq. rewrite !in_zrange in *. cbn [fst snd] in E.
    pose proof (G_inj (Z.to_nat m) j i j' i') as R. rewrite Z2Nat.id in R by lia.
    destruct R as [-> ->]; try lia; try assumption. reflexivity. Qed.

Lemma entry_rows M h w j i : 0 <= j < h -> 0 <= i < w -> entry (rows_of M h w) j i = M j i.
Proof. intros Hj Hi. unfold entry, rows_of.
  rewrite nth_indep with (d' := map (fun i => M 0 i) (zrange 0 w)) by (rewrite map_length, zrange_length; lia).
  rewrite (map_nth (fun j => map (fun i => M j i) (zrange 0 w))). rewrite nth_zrange by lia.
  rewrite nth_indep with (d' := M (0 + Z.of_nat (Z.to_nat j)) 0) by (rewrite map_length, zrange_length; lia).
  rewrite (map_nth (fun i => M (0 + Z.of_nat (Z.to_nat j)) i)). rewrite nth_zrange by lia. f_equal; lia. Qed.

Lemma sp_window m k a b : 0 <= k <= m ->
  Permutation
    (map (fun p => entry (sucesive_packing m) ((a + fst p) mod 2 ^ m) ((b + snd p) mod 2 ^ m) / 4 ^ (m - k))
         (list_prod (zrange 0 (2 ^ k)) (zrange 0 (2 ^ k))))
    (zrange 0 (4 ^ k)).
Proof. intros Hk. pose proof (pow2_pos' m ltac:(lia)) as Wm. pose proof (pow2_pos' k ltac:(lia)) as Wk.
  assert (V : forall x y,
    entry (sucesive_packing m) ((a + x) mod 2 ^ m) ((b + y) mod 2 ^ m) / 4 ^ (m - k) =
    G (Z.to_nat k) ((a + x) mod 2 ^ k) ((b + y) mod 2 ^ k)).
  { intros x y. rewrite sp_rows by lia. rewrite entry_rows by (apply Z.mod_pos_bound; lia).
    pose proof (G_top (Z.to_nat m) (Z.to_nat k) ((a + x) mod 2 ^ m) ((b + y) mod 2 ^ m)) as T.
    rewrite !Z2Nat.id in T by lia. rewrite T by (try lia; apply Z.mod_pos_bound; lia).
    assert (D : forall z, (z mod 2 ^ m) mod 2 ^ k = z mod 2 ^ k).
    { intros z. symmetry. apply Znumtheory.Zmod_div_mod; [lia|lia|].
      exists (2 ^ (m - k)). rewrite <- Z.pow_add_r by lia. f_equal; lia. }
    rewrite !D. reflexivity. }
  rewrite (map_ext _ (fun p => G (Z.to_nat k) ((a + fst p) mod 2 ^ k) ((b + snd p) mod 2 ^ k))) by (intros p; apply V).
  rewrite pow4_2 by lia. apply square_perm; [lia| |].
  - intros [x y] Hp. cbn [fst snd]. rewrite <- pow4_2 by lia.
    pose proof (G_range (Z.to_nat k) ((a + x) mod 2 ^ k) ((b + y) mod 2 ^ k)) as R.
    rewrite Z2Nat.id in R by lia. apply R; apply Z.mod_pos_bound; lia.
  - intros [x y] [x' y'] Hp Hq E. apply in_prod_iff in Hp, Hq. rewrite !in_zrange in *. cbn [fst snd] in E.
    pose proof (G_inj (Z.to_nat k) ((a + x) mod 2 ^ k) ((b + y) mod 2 ^ k) ((a + x') mod 2 ^ k) ((b + y') mod 2 ^ k)) as R.
    rewrite Z2Nat.id in R by lia. destruct R as [A B]; try (apply Z.mod_pos_bound; lia); try assumption.
    assert (U : forall c u v, 0 <= u < 2 ^ k -> 0 <= v < 2 ^ k -> (c + u) mod 2 ^ k = (c + v) mod 2 ^ k -> u = v).
    { intros c u v Hu Hv H. assert (H2 : (u - v) mod 2 ^ k = 0).
      { replace (u - v) with ((c + u) - (c + v)) by lia. rewrite Zminus_mod, H, Z.sub_diag. apply Z.mod_0_l. lia. }
      apply Z.mod_divide in H2; [|lia]. destruct H2 as [q Hq2]. clear - Hq2 Hu Hv. generalize dependent (2 ^ k). intros W Hu Hv E.
      destruct (Z.lt_trichotomy q 0) as [L|[->|L]]; [nia|lia|nia]. }
    f_equal; eapply U; eauto; lia. Qed.

(** ** The packet order *)
Lemma rows_in_turn (M : list (list Z)) W : (length M <= W)%nat ->
  flat_map (fun n => match nth_error M n with Some r => [r] | None => [] end) (seq 0 W) = M.
Proof. intros H. replace W with (length M + (W - length M))%nat by lia. rewrite seq_app, flat_map_app.
  assert (A : flat_map (fun n => match nth_error M n with Some r => [r] | None => [] end) (seq 0 (length M)) = M).
  { clear H. induction M as [|r M IH]; [reflexivity|]. cbn [length seq flat_map]. cbn [nth_error app].
    f_equal. rewrite <- seq_shift, flat_map_concat_map, map_map. cbn [nth_error].
    rewrite <- flat_map_concat_map. exact IH. }
  rewrite A.
  rewrite flat_map_concat_map. rewrite (map_ext_in _ (fun _ => [])).
  - rewrite <- flat_map_concat_map, flat_map_nil. apply app_nil_r.
  - intros n Hn. apply in_seq in Hn. destruct (nth_error M n) eqn:E; [|reflexivity].
    assert (nth_error M n <> None) by congruence. apply nth_error_Some in H0. lia. Qed.

Lemma interleave_rows_perm ms W : Forall (fun M => Z.of_nat (length M) <= W) ms ->
  Permutation (concat (interleave_rows ms W)) (concat (concat ms)).
Proof. intros H. apply concat_perm. unfold interleave_rows.
  rewrite flat_map_swap. rewrite <- (map_id ms) at 2. rewrite <- flat_map_concat_map.
  apply flat_map_perm_ext. intros M HM. rewrite rows_in_turn; [reflexivity|].
  rewrite Forall_forall in H. specialize (H M HM). lia. Qed.

Lemma add_const_concat M c : concat (add_const M c) = map (fun x => x + c) (concat M).
Proof. unfold add_const. rewrite concat_map. reflexivity. Qed.

Lemma copies_perm n cpi q : 0 <= n -> 0 <= q ->
  Permutation
    (concat (concat (map (fun k => add_const (add_const (sucesive_packing n) cpi) (4 ^ n * (k + 1))) (zrange 0 q))))
    (zrange (cpi + 4 ^ n) (cpi + 4 ^ n * (q + 1))).
Proof. intros Hn Hq. pose proof (pow4_pos n Hn). revert q Hq. apply natlike_ind.
  - rewrite (zrange_nil 0 0) by lia. rewrite (zrange_nil (cpi + 4 ^ n)) by lia. constructor.
  - intros q Hq IH. unfold Z.succ. rewrite zrange_snoc, map_app, concat_app, concat_app by lia.
    rewrite (zrange_app (cpi + 4 ^ n) (cpi + 4 ^ n * (q + 1)) (cpi + 4 ^ n * (q + 1 + 1))) by nia. apply Permutation_app; [exact IH|].
    cbn [map concat]. rewrite app_nil_r, !add_const_concat, map_map.
    transitivity (map (fun x => x + (cpi + 4 ^ n * (q + 1))) (zrange 0 (4 ^ n))).
    + rewrite (map_ext _ (fun x => x + (cpi + 4 ^ n * (q + 1)))) by (intros; lia).
      apply Permutation_map, sp_perm; lia.
    + rewrite zrange_shift. match goal with |- Permutation (zrange ?a ?b) (zrange ?c ?d) =>
        replace a with c by lia; replace b with d by lia end. reflexivity. Qed.

Lemma log4_spec p : 0 < p -> 4 ^ (Z.log2 p / 2) <= p < 4 ^ (Z.log2 p / 2 + 1).
Proof. intros Hp. pose proof (Z.log2_spec p Hp) as S. pose proof (Z.log2_nonneg p) as N.
  assert (0 <= Z.log2 p / 2) by (apply Z.div_pos; lia).
  assert (E : Z.log2 p = 2 * (Z.log2 p / 2) + Z.log2 p mod 2) by (apply Z.div_mod; lia).
  pose proof (Z.mod_pos_bound (Z.log2 p) 2 ltac:(lia)).
  change 4 with (2 ^ 2). rewrite <- !Z.pow_mul_r by lia. split.
  - apply Z.le_trans with (2 ^ Z.log2 p); [apply Z.pow_le_mono_r; lia|lia].
  - apply Z.lt_le_trans with (2 ^ Z.succ (Z.log2 p)); [lia|]. apply Z.pow_le_mono_r; lia. Qed.

Lemma log4_unique p n : 0 < p -> 0 <= n -> 4 ^ n <= p < 4 ^ (n + 1) -> Z.log2 p / 2 = n.
Proof. intros Hp Hn H. pose proof (log4_spec p Hp) as S. set (l := Z.log2 p / 2) in *.
  assert (0 <= l) by (apply Z.div_pos; [apply Z.log2_nonneg|lia]).
  assert (l < n + 1) by (apply (Z.pow_lt_mono_r_iff 4); lia).
  assert (n < l + 1) by (apply (Z.pow_lt_mono_r_iff 4); lia). lia. Qed.

Lemma mod_mul_quot p c : 0 < c -> c <= p -> p mod (c * (p / c)) = p mod c.
Proof. intros Hc Hp. pose proof (Z.div_mod p c ltac:(lia)) as E. pose proof (Z.mod_pos_bound p c Hc).
  assert (1 <= p / c) by (apply Z.div_le_lower_bound; lia).
  symmetry. apply Z.mod_unique with 1; nia. Qed.

(** Dimension of the first (largest) matrix for [p4] quarter packets. *)
Definition side (p4 : Z) : Z := 2 ^ Z.max 0 (Z.log2 p4 / 2 - 1).

Lemma side_mono p q : 0 < p -> p <= q -> side p <= side q.
Proof. intros. unfold side. apply Z.pow_le_mono_r; [lia|].
  assert (Z.log2 p <= Z.log2 q) by (apply Z.log2_le_mono; lia).
  assert (Z.log2 p / 2 <= Z.log2 q / 2) by (apply Z.div_le_mono; lia). lia. Qed.

Lemma sp_matrices_spec fuel : forall p4 cpi, 0 <= p4 -> (p4 = 0 \/ Z.log2 p4 / 2 < Z.of_nat fuel) ->
  if p4 mod 4 <=? 1 then
    exists ms, sp_matrices fuel p4 cpi = Ok ms /\
      Permutation (concat (concat ms)) (zrange cpi (cpi + p4 / 4) ++ (if p4 mod 4 =? 1 then [0] else [])) /\
      (p4 = 0 -> ms = []) /\
      (0 < p4 -> Forall (fun M => Z.of_nat (length M) <= side p4) ms /\
                 exists r0 rs rest, ms = (r0 :: rs) :: rest /\ Z.of_nat (length r0) = side p4)
  else sp_matrices fuel p4 cpi = Err TypeError.
Proof. induction fuel as [|fuel IH]; intros p4 cpi Hp Hf.
  - destruct Hf as [->|Hf].
    + cbn. exists []. rewrite zrange_nil by lia. split; [reflexivity|]. split; [constructor|split; [reflexivity|lia]].
    + assert (0 <= Z.log2 p4 / 2) by (apply Z.div_pos; [apply Z.log2_nonneg|lia]). lia.
  - cbn [sp_matrices]. destruct (p4 >? 0) eqn:P.
    2:{ assert (p4 = 0) by lia. subst. cbn. exists []. rewrite zrange_nil by lia. split; [reflexivity|]. split; [constructor|split; [reflexivity|lia]]. }
    pose proof (log4_spec p4 ltac:(lia)) as L. unfold floor_log4_quarters.
    set (l := Z.log2 p4 / 2) in *.
    assert (Hl : 0 <= l) by (apply Z.div_pos; [apply Z.log2_nonneg|lia]).
    replace (l - 1 + 1) with l by lia.
    assert (Hf' : l < Z.of_nat (S fuel)) by (destruct Hf; [lia|assumption]).
    pose proof (pow4_pos l Hl) as P4. rewrite mod_mul_quot by lia.
    destruct (l - 1 <? 0) eqn:N.
    + assert (l = 0) by lia. rewrite H in L. cbn in L. unfold l in H. clear Hf'.
      assert (Hc : p4 = 1 \/ p4 = 2 \/ p4 = 3) by lia. destruct Hc as [-> | [-> | ->]]; cbn [Z.modulo Z.div_eucl] in *.
      * replace l with 0 by (symmetry; exact H). cbn.
        destruct fuel; cbn; (exists [[[0]]]; split; [reflexivity|]; split;
          [rewrite zrange_nil by lia; cbn; constructor; constructor|];
          split; [lia|intros _; split]; [repeat constructor; cbn; lia|exists [0], [], []; split; reflexivity]).
      * replace l with 0 by (symmetry; exact H). reflexivity.
      * replace l with 0 by (symmetry; exact H). reflexivity.
    + assert (Q1 : 1 <= p4 / 4 ^ l) by (apply Z.div_le_lower_bound; lia).
      assert (El : 4 ^ l = 4 * 4 ^ (l - 1)) by (rewrite <- Z.pow_succ_r by lia; f_equal; lia).
      pose proof (pow4_pos (l - 1) ltac:(lia)) as P41.
      destruct (p4 / 4 ^ l >? 0) eqn:Q; [|lia]. destruct (p4 / 4 ^ l =? 0) eqn:Q0; [lia|].
      pose proof (Z.mod_pos_bound p4 (4 ^ l) P4) as MB.
      pose proof (Z.div_mod p4 (4 ^ l) ltac:(lia)) as DM.
      set (q := p4 / 4 ^ l) in *. set (p' := p4 mod 4 ^ l) in *.
      assert (M4 : p4 mod 4 = p' mod 4).
      { rewrite DM, El. replace (4 * 4 ^ (l - 1) * q + p') with (p' + (4 ^ (l - 1) * q) * 4) by ring.
        apply Z.mod_add; lia. }
      assert (D4 : p4 / 4 = 4 ^ (l - 1) * q + p' / 4).
      { rewrite DM at 1. rewrite El. replace (4 * 4 ^ (l - 1) * q + p') with (p' + (4 ^ (l - 1) * q) * 4) by ring.
        rewrite Z.div_add by lia. lia. }
      assert (F' : p' = 0 \/ Z.log2 p' / 2 < Z.of_nat fuel).
      { destruct (Z.eq_dec p' 0) as [->|Np]; [left; reflexivity|right].
        pose proof (log4_spec p' ltac:(lia)) as L'.
        assert (Z.log2 p' / 2 < l) by (apply (Z.pow_lt_mono_r_iff 4); lia). lia. }
      specialize (IH p' (cpi + 4 ^ (l - 1) * q) ltac:(lia) F').
      rewrite M4. destruct (p' mod 4 <=? 1) eqn:R4.
      * destruct IH as (ms & -> & Pm & Z0 & Sh). cbn [bind]. eexists; split; [reflexivity|]. split; [|split; [lia|intros _; split]].
        -- cbn [concat app]. rewrite !concat_app, D4.
           assert (0 <= p' / 4) by (apply Z.div_pos; lia).
           rewrite (zrange_app cpi (cpi + 4 ^ (l - 1) * q)) by nia.
           rewrite (zrange_app cpi (cpi + 4 ^ (l - 1)) (cpi + 4 ^ (l - 1) * q)) by nia.
           rewrite <- !app_assoc. apply Permutation_app; [|apply Permutation_app].
           ++ rewrite add_const_concat.
              transitivity (map (fun x => x + cpi) (zrange 0 (4 ^ (l - 1)))); [apply Permutation_map, sp_perm; lia|].
              rewrite zrange_shift. match goal with |- Permutation (zrange ?a ?b) (zrange ?c ?d) =>
                replace a with c by lia; replace b with d by lia end. reflexivity.
           ++ rewrite copies_perm by lia. replace (q - 1 + 1) with q by lia. reflexivity.
           ++ rewrite Pm. replace (cpi + 4 ^ (l - 1) * q + p' / 4) with (cpi + (4 ^ (l - 1) * q + p' / 4)) by lia. reflexivity.
        -- assert (Sd : side p4 = 2 ^ (l - 1)) by (unfold side; fold l; f_equal; lia).
           destruct (sp_shape (l - 1) ltac:(lia)) as [S1 S2].
           apply Forall_app; split.
           ++ constructor; [unfold add_const; rewrite map_length, S1; lia|].
              apply Forall_forall. intros M HM. apply in_map_iff in HM. destruct HM as (k & <- & _).
              unfold add_const. rewrite !map_length, S1. lia.
           ++ destruct (Z.eq_dec p' 0) as [E0|N0].
              ** rewrite (Z0 E0). constructor.
              ** destruct (Sh ltac:(lia)) as [Fs _]. eapply Forall_impl; [|exact Fs]. cbn beta.
                 intros M HM. pose proof (side_mono p' p4 ltac:(lia) ltac:(lia)). lia.
        -- destruct (sp_shape (l - 1) ltac:(lia)) as [S1 S2].
           assert (Sd : side p4 = 2 ^ (l - 1)) by (unfold side; fold l; f_equal; lia).
           destruct (sucesive_packing (l - 1)) as [|r rs] eqn:Es.
           { pose proof (pow2_pos' (l - 1) ltac:(lia)). cbn [length] in S1. lia. }
           cbn [add_const map app]. eexists; eexists; eexists; split; [reflexivity|].
           rewrite map_length. apply Forall_inv in S2. lia.
      * rewrite IH. reflexivity. Qed.

Lemma build_flat_spec n : 0 < n ->
  if n mod 4 <=? 1 then
    exists o, build_sp_flat n = Ok o /\
      Permutation o (zrange 0 (n / 4) ++ (if n mod 4 =? 1 then [0] else []))
  else build_sp_flat n = Err TypeError.
Proof. intros Hn. unfold build_sp_flat, build_sp_rows.
  pose proof (sp_matrices_spec (Z.to_nat (Z.log2 n) + 2) n 0 ltac:(lia)) as S.
  assert (F : n = 0 \/ Z.log2 n / 2 < Z.of_nat (Z.to_nat (Z.log2 n) + 2)).
  { right. pose proof (Z.log2_nonneg n). assert (Z.log2 n / 2 <= Z.log2 n) by (apply Z.div_le_upper_bound; lia). lia. }
  specialize (S F). destruct (n mod 4 <=? 1).
  - destruct S as (ms & -> & Pm & _ & Sh). destruct (Sh Hn) as [Fs (r0 & rs & rest & -> & W)].
    cbn [bind]. eexists; split; [reflexivity|]. rewrite interleave_rows_perm by (rewrite W; exact Fs).
    rewrite Pm. reflexivity.
  - rewrite S. reflexivity. Qed.

Lemma build_perm P :
  (1 <= P -> exists rows, build_2d_interleave_sp_rows P = Ok rows /\
       build_2d_interleave_sp P = Ok (concat rows) /\ Permutation (concat rows) (zrange 0 P)) /\
  (P <= 0 -> build_2d_interleave_sp_rows P = Err IndexError /\ build_2d_interleave_sp P = Err IndexError).
Proof. unfold build_2d_interleave_sp, build_2d_interleave_sp_rows. split; intros HP.
  - pose proof (build_flat_spec (4 * P) ltac:(lia)) as B.
    assert (M : (4 * P) mod 4 = 0) by (rewrite Z.mul_comm; apply Z.mod_mul; lia).
    assert (D : (4 * P) / 4 = P) by (rewrite Z.mul_comm; apply Z.div_mul; lia).
    rewrite M, D in B. change (0 <=? 1) with true in B. change (0 =? 1) with false in B. cbv iota in B. destruct B as (o & Ho & Hp). unfold build_sp_flat in *.
    destruct (build_sp_rows (4 * P)) as [rows|e]; cbn [bind] in *; [|discriminate].
    exists rows. injection Ho as <-. rewrite app_nil_r in Hp. auto.
  - unfold build_sp_flat, build_sp_rows. 
    assert (E : forall f, sp_matrices f (4 * P) 0 = Ok []).
    { intros [|f]; cbn [sp_matrices]; destruct (4 * P >? 0) eqn:G0; try lia; reflexivity. }
    rewrite E. cbn [bind]. auto. Qed.

Lemma store_order_spec n : 1 <= n ->
  (n mod 4 = 0 -> exists o, store_packets_order n = Ok o /\ Permutation o (zrange 0 (n / 4))) /\
  (n mod 4 = 1 -> exists o, store_packets_order n = Ok o /\ Permutation o (0 :: zrange 0 (n / 4))) /\
  (2 <= n mod 4 -> store_packets_order n = Err TypeError).
Proof. intros Hn. unfold store_packets_order. pose proof (build_flat_spec n ltac:(lia)) as B.
  repeat split; intros M.
  - rewrite M in B. change (0 <=? 1) with true in B. change (0 =? 1) with false in B. cbv iota in B. rewrite app_nil_r in B. exact B.
  - rewrite M in B. change (1 <=? 1) with true in B. change (1 =? 1) with true in B. cbv iota in B. destruct B as (o & Ho & Hp). exists o. split; [exact Ho|].
    rewrite Hp. symmetry. apply Permutation_cons_append.
  - destruct (n mod 4 <=? 1) eqn:E; [lia|]. exact B. Qed.

(** The order of store_packets.py is usable (no exception, no packet twice) iff
    the program length is a multiple of four (or one instruction). *)
Lemma store_order_usable n : 1 <= n ->
  ((exists o, store_packets_order n = Ok o /\ NoDup o) <-> (n mod 4 = 0 \/ n = 1)).
Proof. intros Hn. destruct (store_order_spec n Hn) as (S0 & S1 & S2).
  pose proof (Z.mod_pos_bound n 4 ltac:(lia)). split.
  - intros (o & Ho & Nd). destruct (Z.eq_dec (n mod 4) 0) as [E|E]; [left; exact E|right].
    destruct (Z.eq_dec (n mod 4) 1) as [E1|E1].
    + destruct (S1 E1) as (o' & Ho' & Hp). rewrite Ho in Ho'. injection Ho' as <-.
      apply (Permutation_NoDup Hp) in Nd. inversion Nd as [|? ? Ni _]; subst.
      rewrite in_zrange in Ni. pose proof (Z.div_mod n 4 ltac:(lia)). lia.
    + rewrite S2 in Ho by lia. discriminate.
  - intros [E|E].
    + destruct (S0 E) as (o & Ho & Hp). exists o. split; [exact Ho|].
      apply Permutation_NoDup with (zrange 0 (n / 4)); [symmetry; exact Hp|apply zrange_nodup].
    + subst. exists [0]. split; [reflexivity|]. repeat constructor. intros []. Qed.

Lemma store_order_unusable : exists n, 1 <= n /\ ~ (exists o, store_packets_order n = Ok o /\ NoDup o).
Proof. exists 5. split; [lia|]. rewrite store_order_usable by lia. intros [H|H]; discriminate. Qed.
