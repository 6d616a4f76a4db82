(** Proofs for C156: the order built for a power of four packets (or two or
    three times a power of four), cell by cell, and what a burst can hit. *)
From Verif Require Import ListLemmas SPModel SPSpec SPProofs BitsSpec QueueModel InterleaveModel InterleaveSpec.
From Coq Require Import Permutation ZifyBool ZifyNat.

Lemma nth_rows {A} (f : Z -> list A) (W : Z) d h : 0 <= h ->
  (forall x, 0 <= x < h -> Z.of_nat (length (f x)) = W) ->
  Z.of_nat (length (flat_map f (zrange 0 h))) = h * W /\
  forall x c, 0 <= x < h -> 0 <= c < W ->
    nth (Z.to_nat (x * W + c)) (flat_map f (zrange 0 h)) d = nth (Z.to_nat c) (f x) d.
Proof. revert h. apply (natlike_ind (fun h => (forall x, 0 <= x < h -> Z.of_nat (length (f x)) = W) ->
  Z.of_nat (length (flat_map f (zrange 0 h))) = h * W /\
  forall x c, 0 <= x < h -> 0 <= c < W ->
    nth (Z.to_nat (x * W + c)) (flat_map f (zrange 0 h)) d = nth (Z.to_nat c) (f x) d)).
  - intros _. split; [reflexivity|lia].
  - intros h Hh IH F. destruct IH as [L N]; [intros x Hx; apply F; lia|].
    replace (Z.succ h) with (h + 1) in * by lia. rewrite zrange_snoc by lia. rewrite flat_map_app.
    cbn [flat_map]. rewrite app_nil_r. pose proof (F h ltac:(lia)) as Fh. split.
    + rewrite app_length, Nat2Z.inj_add, L, Fh. ring.
    + intros x c Hx Hc. destruct (Z.eq_dec x h) as [->|Ne].
      * rewrite app_nth2 by nia. f_equal. nia.
      * rewrite app_nth1; [apply N; lia|]. assert (x * W + c < h * W) by nia. nia. Qed.

(** The matrices of [q * 4^m] packets: [q] copies of one matrix. *)
Definition copies (m q : Z) : list (list (list Z)) :=
  map (fun k => add_const (sucesive_packing m) (4 ^ m * k)) (zrange 0 q).

Lemma add_const_twice M a b : add_const (add_const M a) b = add_const M (a + b).
Proof. unfold add_const. rewrite map_map. apply map_ext. intros r. rewrite map_map. apply map_ext. intros x. lia. Qed.

Lemma matrices_of fuel m q : 0 <= m -> 1 <= q <= 3 ->
  sp_matrices (S (S fuel)) (4 * (q * 4 ^ m)) 0 = Ok (copies m q).
Proof. intros Hm Hq. pose proof (pow4_pos m Hm) as P4. cbn [sp_matrices].
  destruct (4 * (q * 4 ^ m) >? 0) eqn:E; [|nia]. unfold floor_log4_quarters.
  assert (L : Z.log2 (4 * (q * 4 ^ m)) / 2 = m + 1).
  { assert (E1 : 4 ^ (m + 1) = 4 * 4 ^ m) by (rewrite Z.pow_add_r by lia; lia).
    assert (E2 : 4 ^ (m + 1 + 1) = 16 * 4 ^ m) by (rewrite !Z.pow_add_r by lia; lia).
    apply log4_unique; nia. }
  rewrite L. replace (m + 1 - 1) with m by lia.
  assert (D : 4 * (q * 4 ^ m) / 4 ^ (m + 1) = q).
  { rewrite Z.pow_add_r by lia. replace (4 * (q * 4 ^ m)) with (q * (4 ^ m * 4 ^ 1)) by lia. apply Z.div_mul. lia. }
  rewrite D. assert (M : (4 * (q * 4 ^ m)) mod (4 ^ (m + 1) * q) = 0).
  { rewrite Z.pow_add_r by lia. replace (4 * (q * 4 ^ m)) with (4 ^ m * 4 ^ 1 * q) by lia. apply Z.mod_same. nia. }
  rewrite M. destruct (m <? 0) eqn:E1; [lia|]. destruct (q >? 0) eqn:E2; [|lia]. destruct (q =? 0) eqn:E3; [lia|].
  cbn [Z.gtb Z.compare bind]. rewrite app_nil_r. f_equal. unfold copies. rewrite (zrange_cons 0 q) by lia. cbn [map].
  f_equal; [f_equal; lia|]. replace (0 + 1) with 1 by lia.
  replace (zrange 1 q) with (map (fun x => x + 1) (zrange 0 (q - 1))) by (rewrite zrange_shift; f_equal; lia).
  rewrite map_map. apply map_ext. intros k. rewrite add_const_twice. f_equal. Qed.

(** Cell by cell: first the rows in turn, in each the copies in turn. *)
Definition cells (m q : Z) : list Z :=
  flat_map (fun j => flat_map (fun k => map (fun i => G (Z.to_nat m) j i + 4 ^ m * k) (zrange 0 (2 ^ m))) (zrange 0 q))
    (zrange 0 (2 ^ m)).

Lemma flat_map_singles {A B} (g : A -> list B) (r : A -> B) l : (forall x, In x l -> g x = [r x]) ->
  flat_map g l = map r l.
Proof. induction l as [|x l IH]; intros H; [reflexivity|]. cbn. rewrite H by (left; reflexivity).
  cbn. f_equal. apply IH. intros; apply H; right; assumption. Qed.

Lemma flat_map_ext_in {A B} (f g : A -> list B) l : (forall x, In x l -> f x = g x) -> flat_map f l = flat_map g l.
Proof. induction l as [|x l IH]; intros H; [reflexivity|]. cbn. rewrite H by (left; reflexivity).
  f_equal. apply IH. intros; apply H; right; assumption. Qed.

Lemma flat_map_map' {A B C} (h : A -> B) (f : B -> list C) l : flat_map f (map h l) = flat_map (fun x => f (h x)) l.
Proof. induction l; cbn; [reflexivity|]. rewrite IHl. reflexivity. Qed.

Lemma concat_flat_map {A B} (f : A -> list (list B)) l : concat (flat_map f l) = flat_map (fun x => concat (f x)) l.
Proof. induction l; cbn; [reflexivity|]. rewrite concat_app, IHl. reflexivity. Qed.

Lemma order_cells m q : 0 <= m -> 1 <= q <= 3 -> build_2d_interleave_sp (q * 4 ^ m) = Ok (cells m q).
Proof. intros Hm Hq. unfold build_2d_interleave_sp, build_sp_flat, build_sp_rows.
  replace (Z.to_nat (Z.log2 (4 * (q * 4 ^ m))) + 2)%nat with (S (S (Z.to_nat (Z.log2 (4 * (q * 4 ^ m)))))) by lia.
  rewrite matrices_of by lia. cbn [bind]. pose proof (pow2_pos' m Hm) as P2.
  assert (R : forall k n, (n < Z.to_nat (2 ^ m))%nat -> nth_error (add_const (sucesive_packing m) (4 ^ m * k)) n =
      Some (map (fun i => G (Z.to_nat m) (Z.of_nat n) i + 4 ^ m * k) (zrange 0 (2 ^ m)))).
  { intros k n Hn. unfold add_const. rewrite sp_rows by lia. unfold rows_of. rewrite map_map.
    erewrite map_nth_error; [|apply nth_error_zrange; lia]. rewrite map_map. do 2 f_equal. }
  assert (H0 : exists r0 rs rest, copies m q = (r0 :: rs) :: rest /\ Z.of_nat (length r0) = 2 ^ m).
  { unfold copies. rewrite (zrange_cons 0 q) by lia. cbn [map].
    specialize (R 0 0%nat ltac:(lia)). destruct (add_const (sucesive_packing m) (4 ^ m * 0)) as [|r0 rs]; [discriminate|].
    exists r0, rs. eexists. split; [reflexivity|]. cbn in R. injection R as ->. rewrite map_length, zrange_length. lia. }
  destruct H0 as (r0 & rs & rest & E & Lr). rewrite E, <- E, Lr. cbn [bind]. f_equal. unfold interleave_rows, cells.
  rewrite concat_flat_map. unfold zrange at 3. rewrite Z.sub_0_r, flat_map_map'. apply flat_map_ext_in.
  intros n Hn. apply in_seq in Hn. unfold copies. rewrite flat_map_map'.
  rewrite (flat_map_singles _ (fun k => map (fun i => G (Z.to_nat m) (Z.of_nat n) i + 4 ^ m * k) (zrange 0 (2 ^ m)))).
  - rewrite <- flat_map_concat_map. apply flat_map_ext_in. intros; apply map_ext. intros; reflexivity.
  - intros k _. rewrite R by lia. reflexivity. Qed.

Lemma cells_at m q : 0 <= m -> 1 <= q ->
  Z.of_nat (length (cells m q)) = q * 4 ^ m /\
  forall j k i, 0 <= j < 2 ^ m -> 0 <= k < q -> 0 <= i < 2 ^ m ->
    nth (Z.to_nat ((j * q + k) * 2 ^ m + i)) (cells m q) (-1) = G (Z.to_nat m) j i + 4 ^ m * k.
Proof. intros Hm Hq. pose proof (pow2_pos' m Hm) as P2.
  assert (I : forall j, Z.of_nat (length (flat_map (fun k => map (fun i => G (Z.to_nat m) j i + 4 ^ m * k) (zrange 0 (2 ^ m))) (zrange 0 q))) = q * 2 ^ m /\
     forall k c, 0 <= k < q -> 0 <= c < 2 ^ m -> nth (Z.to_nat (k * 2 ^ m + c)) (flat_map (fun k => map (fun i => G (Z.to_nat m) j i + 4 ^ m * k) (zrange 0 (2 ^ m))) (zrange 0 q)) (-1)
        = nth (Z.to_nat c) (map (fun i => G (Z.to_nat m) j i + 4 ^ m * k) (zrange 0 (2 ^ m))) (-1)).
  { intros j. apply nth_rows; [lia|]. intros x _. rewrite map_length, zrange_length. lia. }
  unfold cells. destruct (nth_rows (fun j => flat_map (fun k => map (fun i => G (Z.to_nat m) j i + 4 ^ m * k) (zrange 0 (2 ^ m))) (zrange 0 q))
    (q * 2 ^ m) (-1) (2 ^ m) ltac:(lia)) as [L N]; [intros j _; apply I|].
  split; [rewrite L, pow4_2 by lia; ring|].
  intros j k i Hj Hk Hi. replace ((j * q + k) * 2 ^ m + i) with (j * (q * 2 ^ m) + (k * 2 ^ m + i)) by ring.
  rewrite N by nia. destruct (I j) as [_ I2]. rewrite I2 by lia.
  rewrite nth_indep with (d' := G (Z.to_nat m) j 0 + 4 ^ m * k) by (rewrite map_length, zrange_length; lia).
  rewrite (map_nth (fun i => G (Z.to_nat m) j i + 4 ^ m * k)). rewrite nth_zrange by lia. do 2 f_equal. lia. Qed.

Lemma column_fits a b x : 0 < a -> 0 <= x < b -> 0 <= a * x /\ a * x + a <= b * a.
Proof. intros. split; nia. Qed.

(** Where the chunks of word [i] are: one row, one copy, consecutive columns
    from a multiple of [2^k]. *)
Lemma word_cells m k q order i : 0 <= k <= m -> 1 <= q <= 3 -> build_2d_interleave_sp (q * 4 ^ m) = Ok order ->
  exists row col copy, 0 <= row < 2 ^ m /\ (2 ^ k | col) /\ 0 <= col /\ col + 2 ^ k <= 2 ^ m /\
  forall s, 0 <= s < 2 ^ k -> carrier order (2 ^ k * i + s) = G (Z.to_nat m) row (col + s) + 4 ^ m * copy.
Proof. intros Hk Hq B. rewrite order_cells in B by lia. injection B as <-. unfold carrier.
  destruct (cells_at m q ltac:(lia) ltac:(lia)) as [L N]. rewrite L.
  pose proof (pow4_pos m ltac:(lia)) as P4. pose proof (pow2_pos' m ltac:(lia)) as P2m. pose proof (pow2_pos' k ltac:(lia)) as P2k.
  assert (Em : 2 ^ m = 2 ^ (m - k) * 2 ^ k) by (rewrite <- Z.pow_add_r by lia; f_equal; lia).
  pose proof (pow2_pos' (m - k) ltac:(lia)) as P2d.
  (* word number modulo the words of one round *)
  set (R := q * 2 ^ m * 2 ^ (m - k)). assert (HR : 0 < R) by (unfold R; nia).
  assert (EP : q * 4 ^ m = 2 ^ k * R) by (unfold R; rewrite pow4_2 by lia; rewrite Em at 2; ring).
  assert (Pos : forall s, 0 <= s < 2 ^ k -> (2 ^ k * i + s) mod (q * 4 ^ m) = 2 ^ k * (i mod R) + s).
  { clear - EP HR P2k. intros s Hs. rewrite EP. symmetry. apply Z.mod_unique with (i / R).
    - left. pose proof (Z.mod_pos_bound i R HR). nia.
    - pose proof (Z.div_mod i R ltac:(lia)). nia. }
  set (u := i mod R) in *. assert (Hu : 0 <= u < R) by (apply Z.mod_pos_bound; lia).
  (* row, copy and column *)
  set (row := u / 2 ^ (m - k)). set (col := 2 ^ k * (u mod 2 ^ (m - k))).
  pose proof (Z.div_mod u (2 ^ (m - k)) ltac:(lia)) as DM. fold row in DM.
  pose proof (Z.mod_pos_bound u (2 ^ (m - k)) P2d) as MB.
  assert (Hrow : 0 <= row < q * 2 ^ m).
  { split; [apply Z.div_pos; lia|]. apply Z.div_lt_upper_bound; [lia|]. unfold R in Hu. lia. }
  assert (Hcol : 0 <= col /\ col + 2 ^ k <= 2 ^ m) by (unfold col; rewrite Em; apply column_fits; [exact P2k|exact MB]).
  pose proof (Z.div_mod row q ltac:(lia)) as DR. pose proof (Z.mod_pos_bound row q ltac:(lia)) as MR.
  assert (Hj : 0 <= row / q < 2 ^ m).
  { split; [apply Z.div_pos; lia|]. apply Z.div_lt_upper_bound; lia. }
  exists (row / q), col, (row mod q). split; [exact Hj|]. split; [exists (u mod 2 ^ (m - k)); unfold col; ring|].
  split; [tauto|]. split; [tauto|].
  intros z Hz. rewrite Pos by exact Hz. rewrite <- N by lia. do 2 f_equal.
  replace (row / q * q + row mod q) with row by lia. unfold col. rewrite Em, DM at 1. ring. Qed.

(** Two cells of one row, in one aligned group of [2^k] columns, differ by a
    multiple of [2 * 4^(m-k)]. *)
Lemma same_row_apart k : forall m j col s s', (k <= m)%nat -> (2 ^ Z.of_nat k | col) ->
  0 <= s < 2 ^ Z.of_nat k -> 0 <= s' < 2 ^ Z.of_nat k -> 0 <= j < 2 ^ Z.of_nat m ->
  0 <= col -> col + 2 ^ Z.of_nat k <= 2 ^ Z.of_nat m ->
  (2 * 4 ^ (Z.of_nat m - Z.of_nat k) | G m j (col + s) - G m j (col + s')).
Proof. induction m as [|m IH]; intros j col s s' Hk Dv Hs Hs' Hj Hc Hc'.
  - assert (k = 0)%nat by lia. subst k. cbn [G]. apply Z.divide_0_r.
  - pose proof (pow2_pos' (Z.of_nat k) ltac:(lia)) as P2k. pose proof (pow2_pos' (Z.of_nat m) ltac:(lia)) as P2m.
    rewrite Nat2Z.inj_succ, Z.pow_succ_r in Hc', Hj by lia.
    destruct (Nat.eq_dec k (S m)) as [->|Ne].
    + rewrite Nat2Z.inj_succ, Z.pow_succ_r in * by lia. assert (col = 0) by lia. subst col.
      replace (Z.succ (Z.of_nat m) - Z.succ (Z.of_nat m)) with 0 by lia. change (2 * 4 ^ 0) with 2. cbn [G].
      set (w := 2 ^ Z.of_nat m) in *. rewrite !Z.add_0_l.
      destruct (half_cases j w P2m Hj) as [(_ & _ & ->)|(_ & _ & ->)];
      destruct (half_cases s w P2m Hs) as [(_ & _ & ->)|(_ & _ & ->)];
      destruct (half_cases s' w P2m Hs') as [(_ & _ & ->)|(_ & _ & ->)];
      match goal with |- (2 | 4 * ?a + ?x - (4 * ?b + ?y)) => generalize a b; intros A0 B0;
        let u := eval compute in x in let v := eval compute in y in
        change x with u; change y with v end;
      clear; (exists (2 * (A0 - B0)); ring) || (exists (2 * (A0 - B0) + 1); ring) || (exists (2 * (A0 - B0) - 1); ring).
    + assert (Hk' : (k <= m)%nat) by lia. destruct Dv as [c Ec].
      assert (Ew : 2 ^ Z.of_nat m = 2 ^ (Z.of_nat m - Z.of_nat k) * 2 ^ Z.of_nat k) by (rewrite <- Z.pow_add_r by lia; f_equal; lia).
      pose proof (pow2_pos' (Z.of_nat m - Z.of_nat k) ltac:(lia)) as P2d.
      set (w := 2 ^ Z.of_nat m) in *. set (d := 2 ^ (Z.of_nat m - Z.of_nat k)) in *. set (g := 2 ^ Z.of_nat k) in *.
      assert (Sp : forall z, 0 <= z < g -> (col + z) / w = col / w /\ (col + z) mod w = col mod w + z).
      { intros z Hz. assert (Mc : col mod w = (c mod d) * g) by (rewrite Ec, Ew, Z.mul_mod_distr_r by lia; reflexivity).
        pose proof (Z.mod_pos_bound c d P2d). pose proof (Z.div_mod col w ltac:(lia)).
        assert (col mod w + z < w) by (rewrite Mc, Ew; nia). split.
        - symmetry. apply Z.div_unique with (col mod w + z); [left; nia|lia].
        - symmetry. apply Z.mod_unique with (col / w); [left; nia|lia]. }
      cbn [G]. fold w. destruct (Sp s Hs) as [-> ->], (Sp s' Hs') as [-> ->].
      assert (Mc : col mod w = (c mod d) * g) by (rewrite Ec, Ew, Z.mul_mod_distr_r by lia; reflexivity).
      pose proof (Z.mod_pos_bound c d P2d).
      destruct (IH (j mod w) (col mod w) s s' Hk') as [e Ee]; try assumption.
      * rewrite Mc. exists (c mod d). reflexivity.
      * apply Z.mod_pos_bound; lia.
      * rewrite Mc; nia.
      * rewrite Mc, Ew; nia.
      * exists e. rewrite Nat2Z.inj_succ. replace (Z.succ (Z.of_nat m) - Z.of_nat k) with (Z.succ (Z.of_nat m - Z.of_nat k)) by lia.
        rewrite Z.pow_succ_r by lia. lia. Qed.

(** Chunks of one word: different packets, a multiple of [2 * 4^(m-k)] apart. *)
Lemma word_apart m k q w order t t' : 0 <= k <= m -> 1 <= q <= 3 -> w * 2 ^ k = 32 ->
  build_2d_interleave_sp (q * 4 ^ m) = Ok order -> chunk_word w t = chunk_word w t' -> t <> t' ->
  carrier order t <> carrier order t' /\ (2 * 4 ^ (m - k) | carrier order t - carrier order t').
Proof. intros Hk Hq Hw B E Ne. pose proof (pow2_pos' k ltac:(lia)) as P2k.
  unfold chunk_word in E. rewrite <- Hw, !Z.div_mul_cancel_l in E by nia.
  pose proof (Z.div_mod t (2 ^ k) ltac:(lia)) as D1. pose proof (Z.div_mod t' (2 ^ k) ltac:(lia)) as D2.
  pose proof (Z.mod_pos_bound t (2 ^ k) P2k) as B1. pose proof (Z.mod_pos_bound t' (2 ^ k) P2k) as B2.
  rewrite <- E in D2. set (i := t / 2 ^ k) in *. set (s := t mod 2 ^ k) in *. set (s' := t' mod 2 ^ k) in *.
  destruct (word_cells m k q order i Hk Hq B) as (row & col & copy & Hr & Dc & C0 & C1 & At).
  rewrite D1, D2, !At by assumption. split.
  - intros Eq. pose proof (G_inj (Z.to_nat m) row (col + s) row (col + s')) as I. rewrite Z2Nat.id in I by lia.
    destruct I as [_ I]; [lia|lia|lia|lia|lia|]. apply Ne. lia.
  - replace (G (Z.to_nat m) row (col + s) + 4 ^ m * copy - (G (Z.to_nat m) row (col + s') + 4 ^ m * copy))
      with (G (Z.to_nat m) row (col + s) - G (Z.to_nat m) row (col + s')) by ring.
    pose proof (same_row_apart (Z.to_nat k) (Z.to_nat m) row col s s') as A. rewrite !Z2Nat.id in A by lia. apply A; (lia || assumption). Qed.
