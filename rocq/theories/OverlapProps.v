(** C60, continued: what the shift compressor drops when the ranges overlap. *)
From Verif Require Import ListLemmas IoModel IoProofs CompressModel CompressSpec CompressProps.
From Coq Require Import ZifyBool ZifyNat Permutation Sorted.

(** The number of positions in [x, n]; the positions dropped: those before the room needed
    by all entries from some entry on is used up. *)
Definition between (starts : list Z) (x n : Z) : Z := Z.of_nat (length (filter (fun y => (x <=? y) && (y <=? n)) starts)).
Definition swept (shift : Z) (starts : list Z) (n : Z) : bool := existsb (fun x => (x <=? n) && (n <? x + shift * between starts x n)) starts.

Lemma between_nonneg l x n : 0 <= between l x n.
Proof. unfold between. lia. Qed.
Lemma between_cons y l x n : between (y :: l) x n = (if (x <=? y) && (y <=? n) then 1 else 0) + between l x n.
Proof. unfold between. cbn [filter]. destruct ((x <=? y) && (y <=? n)); cbn [length]; lia. Qed.
Lemma between_anti l x x' n : x <= x' -> between l x' n <= between l x n.
Proof. intros L. induction l as [|y l IH]; [unfold between; cbn; lia|]. rewrite !between_cons. destruct ((x' <=? y) && (y <=? n)) eqn:A, ((x <=? y) && (y <=? n)) eqn:B; lia. Qed.
Lemma between_low l x x' n : (forall y, In y l -> x <= y) -> x' <= x -> between l x' n = between l x n.
Proof. intros H L. unfold between. do 2 f_equal. apply filter_ext_in. intros y I. specialize (H y I). lia. Qed.
Lemma between_none l x n : (forall y, In y l -> n < y) -> between l x n = 0.
Proof. intros H. unfold between. rewrite filter_false; [reflexivity|]. intros y I. specialize (H y I). lia. Qed.
Lemma between_perm a b x n : Permutation a b -> between a x n = between b x n.
Proof. intros P. unfold between. f_equal. induction P as [|y l l' P IH|y z l|l1 l2 l3 P1 IH1 P2 IH2]; cbn [filter]; [reflexivity|destruct ((x <=? y) && (y <=? n)); cbn [length]; congruence|destruct ((x <=? z) && (z <=? n)), ((x <=? y) && (y <=? n)); reflexivity|congruence]. Qed.
Lemma swept_perm shift a b n : Permutation a b -> swept shift a n = swept shift b n.
Proof. intros P. apply eq_true_iff_eq. unfold swept. rewrite !existsb_exists. split; intros (x & I & H); exists x; (split; [eapply Permutation_in; [|exact I]; [exact P || apply Permutation_sym, P]|]).
  - rewrite <- (between_perm a b x n P). exact H.
  - rewrite (between_perm a b x n P). exact H. Qed.

(** The least position up to [n]. *)
Lemma least_start l n : (forall y, In y l -> 0 <= y) -> between l 0 n = 0 \/ exists x, In x l /\ x <= n /\ between l x n = between l 0 n.
Proof. induction l as [|y l IH]; intros H; [left; reflexivity|]. assert (Hy := H y (or_introl eq_refl)). specialize (IH (fun z I => H z (or_intror I))). rewrite between_cons. replace (0 <=? y) with true by lia. cbn [andb]. destruct (Z.leb_spec y n) as [L|L].
  - right. destruct IH as [E|(x & I & Lx & E)].
    + exists y. split; [left; reflexivity|]. split; [exact L|]. rewrite between_cons. replace ((y <=? y) && (y <=? n)) with true by lia. pose proof (between_anti l 0 y n Hy). pose proof (between_nonneg l y n). lia.
    + destruct (Z.leb_spec x y) as [Lxy|Lxy].
      * exists x. split; [right; exact I|]. split; [exact Lx|]. rewrite between_cons. replace ((x <=? y) && (y <=? n)) with true by lia. lia.
      * exists y. split; [left; reflexivity|]. split; [exact L|]. rewrite between_cons. replace ((y <=? y) && (y <=? n)) with true by lia. pose proof (between_anti l 0 y n Hy). pose proof (between_anti l y x n ltac:(lia)). lia.
  - cbn [Z.add]. destruct IH as [E|(x & I & Lx & E)]; [left; exact E|]. right. exists x. split; [right; exact I|]. split; [exact Lx|]. rewrite between_cons. replace ((x <=? y) && (y <=? n)) with false by lia. lia. Qed.
Lemma swept_cons shift s l n : 0 <= s -> (forall y, In y l -> s <= y) -> swept shift (s :: l) n = swept shift l n || ((s <=? n) && (n <? s + shift * (1 + between l 0 n))).
Proof. intros Hs H. assert (B : between l s n = between l 0 n) by (symmetry; apply between_low; [exact H|exact Hs]).
  assert (Self : (s <=? n) && (n <? s + shift * between (s :: l) s n) = (s <=? n) && (n <? s + shift * (1 + between l 0 n))). { rewrite between_cons, B. destruct (Z.leb_spec s n) as [L|L]; [|reflexivity]. replace ((s <=? s) && true) with true by lia. reflexivity. }
  apply eq_true_iff_eq. rewrite orb_true_iff. unfold swept. cbn [existsb]. rewrite orb_true_iff, Self, !existsb_exists. split.
  - intros [X|(x & I & X)]; [right; exact X|]. specialize (H x I). rewrite between_cons in X. destruct (Z.eq_dec x s) as [->|Ne]; [right; rewrite between_cons in Self; rewrite <- Self; exact X|]. left. exists x. split; [exact I|]. replace ((x <=? s) && (s <=? n)) with false in X by lia. exact X.
  - intros [(x & I & X)|X]; [|left; exact X]. right. exists x. split; [exact I|]. rewrite between_cons. specialize (H x I). destruct ((x <=? s) && (s <=? n)) eqn:E; [|exact X]. assert (x = s) by lia. subst x. rewrite B in *. pose proof (between_nonneg l 0 n). destruct (Z.leb_spec 0 shift); nia. Qed.

Lemma filter_index {A} (g : A -> bool) : forall l a b, (a <= b)%nat -> (forall j x, nth_error l j = Some x -> g x = negb ((a <=? j)%nat && (j <? b)%nat)) -> filter g l = firstn a l ++ skipn b l.
Proof. induction l as [|x l IH]; intros a b L H; [destruct a, b; reflexivity|]. pose proof (H 0%nat x eq_refl) as H0. cbn [filter]. destruct b as [|b].
  - assert (a = 0%nat) as -> by lia. cbn [firstn skipn app]. rewrite H0. cbn. f_equal. rewrite (IH 0%nat 0%nat); [reflexivity|lia|]. intros j y E. rewrite (H (S j) y E). reflexivity.
  - destruct a as [|a].
    + rewrite H0. cbn [Nat.leb Nat.ltb andb negb firstn skipn app]. rewrite (IH 0%nat b); [reflexivity|lia|]. intros j y E. rewrite (H (S j) y E). reflexivity.
    + rewrite H0. cbn [Nat.leb Nat.ltb andb negb firstn skipn app]. f_equal. apply IH; [lia|]. intros j y E. rewrite (H (S j) y E). reflexivity. Qed.
Lemma nth_skip {A} (l : list A) b j : nth_error (skipn b l) j = nth_error l (b + j).
Proof. revert b. induction l as [|x l IH]; intros [|b]; cbn [skipn Nat.add nth_error]; [reflexivity|destruct j; reflexivity|reflexivity|apply IH]. Qed.

(** The positions that are left, and where they are. *)
Definition left_over (shift N : Z) (l P : list Z) : Prop :=
  P = filter (fun n => negb (swept shift l n)) (zrange 0 N) /\ forall j n, nth_error P j = Some n -> Z.of_nat j = n - shift * between l 0 n.
Lemma left_step shift N s l P : 0 <= shift -> 0 <= s -> (forall y, In y l -> s <= y) -> left_over shift N l P ->
  let len := Z.of_nat (length P) in let a := slice_index len s in let b := Z.max a (slice_index len (s + shift)) in
  left_over shift N (s :: l) (firstn (Z.to_nat a) P ++ skipn (Z.to_nat b) P).
Proof. intros Hsh Hs H (EP & Ix). cbv zeta. set (len := Z.of_nat (length P)). unfold slice_index. replace (s <? 0) with false by lia. replace (s + shift <? 0) with false by lia. set (a := Z.min s len). set (b := Z.max a (Z.min (s + shift) len)).
  assert (Pos : forall j n, nth_error P j = Some n -> (j < length P)%nat /\ 0 <= n /\ swept shift l n = false). { intros j n E. split; [apply nth_error_Some; congruence|]. apply nth_error_In in E. rewrite EP in E. apply filter_In in E. destruct E as [I E]. apply in_zrange in I. split; [lia|]. destruct (swept shift l n); [discriminate|reflexivity]. }
  assert (Where : forall j n, nth_error P j = Some n -> (s <= n <-> s <= Z.of_nat j)).
  { intros j n E. destruct (Pos j n E) as (_ & Hn & Sw). rewrite (Ix j n E). split; [|pose proof (between_nonneg l 0 n); nia]. intros L. destruct (least_start l n) as [Z0|(x & I & Lx & Eb)]; [intros y I; specialize (H y I); lia|rewrite Z0; lia|].
    specialize (H x I). unfold swept in Sw. rewrite <- Eb. destruct (Z_lt_dec n (x + shift * between l x n)) as [C|C]; [|lia]. exfalso. assert (existsb (fun x0 => (x0 <=? n) && (n <? x0 + shift * between l x0 n)) l = true) by (apply existsb_exists; exists x; split; [exact I|lia]). congruence. }
  assert (Eg : filter (fun n => negb ((s <=? n) && (n <? s + shift * (1 + between l 0 n)))) P = firstn (Z.to_nat a) P ++ skipn (Z.to_nat b) P).
  { apply filter_index; [lia|]. intros j n E. destruct (Pos j n E) as (Lj & Hn & _). pose proof (Where j n E) as W. pose proof (Ix j n E) as I. f_equal. rewrite Z.mul_add_distr_l. destruct (Z.leb_spec s n) as [L|L]; cbn [andb].
    - assert (s <= Z.of_nat j) by (apply W, L). destruct (Z.ltb_spec n (s + (shift * 1 + shift * between l 0 n))) as [C|C]; symmetry; [apply andb_true_iff|apply andb_false_iff]; lia.
    - symmetry. apply andb_false_iff. assert (~ s <= Z.of_nat j) by (intros X; apply W in X; lia). lia. }
  split.
  - rewrite <- Eg, EP. clear - Hs H. induction (zrange 0 N) as [|n r IH]; [reflexivity|]. cbn [filter]. rewrite (swept_cons shift s l n Hs H). destruct (swept shift l n); cbn [negb orb]; [exact IH|]. cbn [filter]. destruct ((s <=? n) && (n <? s + shift * (1 + between l 0 n))); cbn [negb]; [exact IH|rewrite IH; reflexivity].
  - intros j n E. rewrite between_cons. assert (La : length (firstn (Z.to_nat a) P) = Z.to_nat a) by (rewrite firstn_length; lia). destruct (Nat.ltb_spec j (Z.to_nat a)) as [Lj|Lj].
    + rewrite nth_error_app1 in E by lia. assert (E' : nth_error P j = Some n). { rewrite <- (firstn_skipn (Z.to_nat a) P), nth_error_app1 by lia. exact E. } rewrite (Ix j n E'). pose proof (Where j n E') as W. assert (~ s <= n) by (intros X; apply W in X; lia). replace ((0 <=? s) && (s <=? n)) with false by lia. lia.
    + rewrite nth_error_app2 in E by lia. rewrite La, nth_skip in E. destruct (Pos _ n E) as (Lp & _). pose proof (Ix _ n E) as I. pose proof (Where _ n E) as W. assert (s <= n) by (apply W; lia). replace ((0 <=? s) && (s <=? n)) with true by lia. rewrite Z.mul_add_distr_l. lia. Qed.
Lemma delete_map (W : Z -> bool) P lo hi : del_slice (map W P) lo hi = map W (firstn (Z.to_nat (slice_index (Z.of_nat (length P)) lo)) P ++ skipn (Z.to_nat (Z.max (slice_index (Z.of_nat (length P)) lo) (slice_index (Z.of_nat (length P)) hi))) P).
Proof. unfold del_slice. cbv zeta. rewrite map_length, map_app, firstn_map, skipn_map. reflexivity. Qed.
Lemma fold_sweeps data shift es : 0 <= shift -> (forall e, In e es -> 0 <= start e) -> StronglySorted (fun e e' => start e <= start e') es ->
  fold_left (fun a e => del_slice a (start e) (start e + shift)) (rev es) (map (wire_bit data) (zrange 0 (32 * Z.of_nat (length data)))) = kept_bits (swept shift (map start es)) data.
Proof. intros Hs P S. rewrite <- fold_left_rev_right, rev_involutive. set (N := 32 * Z.of_nat (length data)).
  assert (X : exists L, fold_right (fun e a => del_slice a (start e) (start e + shift)) (map (wire_bit data) (zrange 0 N)) es = map (wire_bit data) L /\ left_over shift N (map start es) L).
  { induction S as [|e es S IH F]; cbn [fold_right map].
    - exists (zrange 0 N). split; [reflexivity|]. split; [rewrite filter_true by reflexivity; reflexivity|]. intros j n E. assert (Lj : (j < length (zrange 0 N))%nat) by (apply nth_error_Some; congruence). rewrite zrange_length in Lj. unfold between. cbn [filter length]. unfold zrange in E. rewrite nth_error_map in E. destruct (nth_error (seq 0 (Z.to_nat (N - 0))) j) as [k|] eqn:Ek; [|discriminate]. cbn [option_map] in E. injection E as <-.
      assert (k = j). { rewrite (nth_error_nth' _ 0%nat) in Ek by (rewrite seq_length; exact Lj). rewrite seq_nth in Ek by exact Lj. injection Ek as <-. reflexivity. } subst. lia.
    - destruct IH as (L & -> & G); [intros x I; apply P; right; exact I|]. rewrite delete_map. eexists. split; [reflexivity|]. apply left_step; [exact Hs|apply P; left; reflexivity| |exact G]. intros y I. apply in_map_iff in I. destruct I as (e' & <- & I'). rewrite Forall_forall in F. apply F, I'. }
  destruct X as (L & -> & (-> & _)). reflexivity. Qed.

(** All entries but one with the least position are honoured, from the last to the first,
    and each drops the next [shift] bits that are still there. *)
Theorem C60_overlap_exact : forall shift remove data, 0 <= shift -> Forall word32 data -> (forall e, In e remove -> proper e) ->
  exists bytes, shift_compress shift remove data = Ok bytes /\
    forall rest, all_but_first remove rest -> holds_bits bytes (kept_bits (swept shift (map start rest)) data).
Proof. intros shift remove data Hs F P. unfold shift_compress. rewrite (pack_words_ok data F). cbn [bind]. eexists. split; [reflexivity|]. intros rest A.
  pose proof (sort_by_perm (fun e => e_word e * 10000 + e_bit e) remove) as Ps. fold (sorted_entries remove) in Ps. pose proof (sorted_starts remove P) as S.
  assert (Sub : forall e, In e (tl (sorted_entries remove)) -> In e remove). { intros e I. eapply Permutation_in; [exact Ps|]. destruct (sorted_entries remove); [destruct I|right; exact I]. }
  rewrite data_wire. unfold visited_entries. rewrite fold_sweeps; [|exact Hs|intros e I; destruct (P e (Sub e I)) as [? ?]; unfold start; lia|destruct (sorted_entries remove); [constructor|inversion S; assumption]].
  assert (Pm : Permutation (map start (tl (sorted_entries remove))) (map start rest)).
  { destruct A as [[-> ->]|(first & Pf & Lo)]; [apply Permutation_refl|]. destruct (sorted_entries remove) as [|f t].
    - apply Permutation_nil in Ps. subst. apply Permutation_length in Pf. discriminate.
    - cbn [tl]. assert (Q : Permutation (f :: t) (first :: rest)) by (eapply Permutation_trans; eassumption). assert (E : start f = start first).
      { inversion S as [|? ? _ Ff]; subst. rewrite Forall_forall in Ff. assert (L1 : start f <= start first). { assert (I : In first (f :: t)) by (eapply Permutation_in; [apply Permutation_sym, Q|left; reflexivity]). destruct I as [->|I]; [lia|apply Ff, I]. }
        assert (L2 : start first <= start f). { assert (I : In f (first :: rest)) by (eapply Permutation_in; [apply Q|left; reflexivity]). destruct I as [->|I]; [lia|apply Lo, I]. } lia. }
      apply (Permutation_map start) in Q. cbn [map] in Q. rewrite E in Q. eapply Permutation_cons_inv, Q. }
  replace (kept_bits (swept shift (map start rest)) data) with (kept_bits (swept shift (map start (tl (sorted_entries remove)))) data); [apply tobytes_holds|]. unfold kept_bits. f_equal. apply filter_ext. intros n. f_equal. apply swept_perm, Pm. Qed.
Print Assumptions C60_overlap_exact.
(** The ranges from 8 and from 9 of two bits each take the four bits from 8 to 11. *)
Example C60_overlap_example : map (swept 2 [8; 9]) (zrange 7 13) = [false; true; true; true; true; false] /\ map (swept 2 [8; 8; 20]) (zrange 7 13) = [false; true; true; true; true; false] /\
  all_but_first [Entry 0 0 false; Entry 0 8 false; Entry 0 9 false] [Entry 0 8 false; Entry 0 9 false] /\ shift_compress 2 [Entry 0 9 false; Entry 0 0 false; Entry 0 8 false] [0x0000FF00] = Ok [0; 240; 0; 0].
Proof. split; [reflexivity|]. split; [reflexivity|]. split; [right; exists (Entry 0 0 false); split; [apply Permutation_refl|intros e [<-|[<-|[]]]; vm_compute; congruence]|]. vm_compute. reflexivity. Qed.
