(** C172: how large the search left by a recovery run is. *)
From Verif Require Import ListLemmas MetaModel MetaSpec RecModel RecSpec RecProofs RemoveProofs RecProps QualityModel QualityProps QualityMoreProps.
From Coq Require Import ZifyBool ZifyNat Permutation Lra.
Open Scope Z_scope.

(** ** Specification *)
(** The program as the quality measures see it; [view] says what they see of a
    candidate. *)
Definition seen (view : cand -> qcand) (p : cprogram) : qprogram := map (fun kv => (fst kv, map view (snd kv))) p.
(** A run of the passes of recover_program.py with the probabilistic recuperator. *)
Definition run (m : pmodel) (col : collector) (fns : functions) (p : cprogram) : result (cprogram * nat) := passes score (fun _ => recover m col fns) (S (total p)) 0 p.
Definition sizes (p : cprogram) : list nat := map (fun kv => length (snd kv)) p.
(** Ways to pick one candidate for every address. *)
Definition choices (p : cprogram) : Z := fold_right (fun n a => Z.of_nat n * a) 1 (sizes p).

(** ** Proofs *)
Definition bits (l : list nat) : R := fold_right (fun n s => (weight (Z.of_nat n, 1%Z) + s)%R) 0%R l.
Lemma seen_sizes view p : map (fun kv => length (snd kv)) (seen view p) = sizes p.
Proof. unfold seen, sizes. rewrite map_map. apply map_ext. intros [k v]. apply map_length. Qed.
Lemma size_bits (p : qprogram) : size_of (bins_of p) = bits (map (fun kv => length (snd kv)) p).
Proof. unfold bins_of. assert (G : forall d, size_of (fold_left add_bin (dvalues p) d) = (size_of d + bits (map (fun kv => length (snd kv)) p))%R); [|rewrite G; unfold size_of; cbn [fold_left]; ring].
  induction p as [|[a v] p IH]; intros d; cbn [dvalues map fold_left snd bits fold_right]; [ring|]. fold (dvalues p). fold (bits (map (fun kv => length (snd kv)) p)). rewrite IH, size_add. ring. Qed.
Lemma amount_zero (p : qprogram) : amount_of (bins_of p) = 0 -> forall a v, In (a, v) p -> v = [].
Proof. intros Z0 a v I. set (k := Z.of_nat (length v)). assert (B : dget (bins_of p) k = Some (Z.of_nat (with_candidates p k))).
  { rewrite bins_exact. destruct (with_candidates p k =? 0)%nat eqn:E; [|reflexivity]. exfalso. unfold with_candidates in E. apply Nat.eqb_eq in E. apply length_zero_iff_nil in E. assert (X : In (a, v) (filter (fun kv => Z.of_nat (length (snd kv)) =? k) p)) by (apply filter_In; split; [exact I|cbn [snd]; unfold k; lia]). rewrite E in X. destruct X. }
  assert (P : forall k n, In (k, n) (bins_of p) -> 0 <= k /\ 0 <= n).
  { intros k' n J. assert (N : NoDup (dkeys (bins_of p))) by (apply bins_nodup; constructor). pose proof (bins_exact p k') as X. rewrite (dget_nodup_in _ _ _ N J) in X. destruct (with_candidates p k' =? 0)%nat eqn:E; [discriminate|]. injection X as ->. split; [|lia].
    destruct (Z.ltb_spec k' 0); [|assumption]. exfalso. unfold with_candidates in E. destruct (filter _ p) as [|[b w] l] eqn:F; [discriminate|]. assert (Y : In (b, w) ((b, w) :: l)) by (left; reflexivity). rewrite <- F in Y. apply filter_In in Y as [_ Y]. cbn [snd] in Y. lia. }
  rewrite amount_sum in Z0. assert (S : forall b, (forall k n, In (k, n) b -> 0 <= k /\ 0 <= n) -> 0 <= fold_right (fun kv a => fst kv ^ snd kv + a) 0 b /\ (fold_right (fun kv a => fst kv ^ snd kv + a) 0 b = 0 -> forall k n, In (k, n) b -> k ^ n = 0)).
  { clear. induction b as [|[k n] b IH]; intros P; [split; [cbn; lia|intros _ k n []]|]. destruct IH as [I1 I2]; [intros; apply P; right; assumption|]. destruct (P k n ltac:(left; reflexivity)) as [K N]. assert (0 <= k ^ n) by (apply Z.pow_nonneg; exact K). cbn [fold_right fst snd]. split; [lia|].
    intros E k' n' [X|X]; [injection X as <- <-; lia|apply I2; [lia|exact X]]. }
  apply dget_in in B. destruct (S _ P) as [_ S']. specialize (S' Z0 _ _ B). destruct v as [|c v]; [reflexivity|]. exfalso. assert (0 < k) by (unfold k; cbn [length]; lia). pose proof (Z.pow_pos_nonneg k (Z.of_nat (with_candidates p k)) ltac:(lia) ltac:(lia)). lia. Qed.
Lemma bits_all (p : qprogram) : bits_of p = Ok (Some (bits (map (fun kv => length (snd kv)) p))).
Proof. unfold bits_of, solution_size, new_quality. cbn [qu_count]. change (-1 <=? -1) with true. cbv iota. unfold count_solutions. cbn [qu_count qu_prog qu_size snd]. rewrite <- size_bits.
  destruct (amount_of (bins_of p)) eqn:E; [|reflexivity|reflexivity]. f_equal. f_equal. rewrite size_bits. pose proof (amount_zero p E) as H. clear E. induction p as [|[a v] p IH]; [reflexivity|]. cbn [map bits fold_right snd]. fold (bits (map (fun kv => length (snd kv)) p)).
  rewrite (H a v ltac:(left; reflexivity)). rewrite <- IH by (intros; eapply H; right; eassumption). unfold weight. cbn. ring. Qed.
Lemma weight_le a b : (a <= b)%nat -> (weight (Z.of_nat a, 1%Z) <= weight (Z.of_nat b, 1%Z))%R /\ (weight (Z.of_nat a, 1%Z) = weight (Z.of_nat b, 1%Z) <-> Nat.max 1 a = Nat.max 1 b).
Proof. intros L. assert (L2 : (0 < ln 2)%R) by (rewrite <- ln_1; apply ln_increasing; lra). unfold weight. cbn [fst snd].
  destruct (Z.ltb_spec 1 (Z.of_nat b)) as [B|B].
  - destruct (Z.ltb_spec 1 (Z.of_nat a)) as [A|A].
    + destruct (Nat.eq_dec a b) as [->|Ne]; [split; [lra|tauto]|]. assert (X : (ln (IZR (Z.of_nat a)) < ln (IZR (Z.of_nat b)))%R) by (apply ln_increasing; apply IZR_lt; lia).
      assert (Y : (ln (IZR (Z.of_nat a)) / ln 2 < ln (IZR (Z.of_nat b)) / ln 2)%R) by (apply Rmult_lt_compat_r; [apply Rinv_0_lt_compat, L2|exact X]). split; [lra|]. split; [lra|lia].
    + assert (X : (0 < ln (IZR (Z.of_nat b)))%R) by (rewrite <- ln_1; apply ln_increasing; [lra|apply IZR_lt; lia]). assert (Y : (0 < ln (IZR (Z.of_nat b)) / ln 2)%R) by (apply Rdiv_lt_0_compat; assumption). split; [lra|]. split; [lra|lia].
  - destruct (Z.ltb_spec 1 (Z.of_nat a)) as [A|A]; [lia|]. split; [lra|]. split; [lia|reflexivity]. Qed.
Lemma bits_le l l' : Forall2 le l l' -> (bits l <= bits l')%R /\ (bits l = bits l' <-> map (Nat.max 1) l = map (Nat.max 1) l').
Proof. induction 1 as [|a b l l' L _ [IH1 IH2]]; [split; [apply Rle_refl|tauto]|]. cbn [bits fold_right map]. fold (bits l) (bits l'). destruct (weight_le a b L) as [W1 W2]. split; [lra|]. split.
  - intros E. assert (weight (Z.of_nat a, 1%Z) = weight (Z.of_nat b, 1%Z)) by lra. f_equal; [tauto|apply IH2; lra].
  - intros E. injection E as E1 E2. apply W2 in E1. apply IH2 in E2. lra. Qed.
Lemma subseq_shorter {A} (l l' : list A) : subseq l l' -> (length l <= length l')%nat.
Proof. induction 1; cbn [length]; lia. Qed.
Lemma run_sizes m col fns p p' n : run m col fns p = Ok (p', n) -> Forall2 le (sizes p') (sizes p).
Proof. intros E. destruct (C42_recuperator m col fns p) as [_ H]. destruct (H p' n E) as [F _]. clear -F. induction F as [|[k v] [k' v'] p p' [_ S] _ IH]; cbn [sizes map]; constructor; [|exact IH].
  cbn [snd] in *. apply subseq_shorter in S. now rewrite !map_length in S. Qed.

(** The number of solutions can grow: from 3 and 4 candidates, 7, to 3 and 3, 9. *)
Definition odd_one := mkD 104 8 false 14 99 [4] [4] [] [4] [] false KOther None.
Definition three_four : cprogram := [(4, [fresh o_add; fresh o_add; fresh o_add]); (8, [fresh o_pop; fresh o_pop; fresh o_pop; fresh odd_one])].
Theorem C172_shrinks_refuted : forall view, exists m col fns p p' n before after, run m col fns p = Ok (p', n) /\ count_of (seen view p) = Ok (Some before) /\ count_of (seen view p') = Ok (Some after) /\ before < after.
Proof. intros view. exists default_model, (collect new_collector calm_orig), [(4, (4, 8))], three_four. eexists. exists 1%nat, 7, 9. split; [vm_compute; reflexivity|]. split; [reflexivity|]. split; [reflexivity|lia]. Qed.
Print Assumptions C172_shrinks_refuted.

(** The number of bits never grows, whatever a run leaves, and stays only if no address
    with several candidates lost one. *)
Theorem C172_size : forall view m col fns p p' n, run m col fns p = Ok (p', n) ->
  exists before after, bits_of (seen view p) = Ok (Some before) /\ bits_of (seen view p') = Ok (Some after) /\ (after <= before)%R /\
    (after = before <-> map (Nat.max 1) (sizes p') = map (Nat.max 1) (sizes p)).
Proof. intros view m col fns p p' n E. exists (bits (sizes p)), (bits (sizes p')). rewrite !bits_all, !seen_sizes. split; [reflexivity|]. split; [reflexivity|]. apply bits_le. eapply run_sizes, E. Qed.
Print Assumptions C172_size.

(** The count is at most one above the number of ways to pick a candidate per address,
    so at most one above that before the run. *)
Definition product (b : dict Z) : Z := fold_right (fun kv a => fst kv ^ snd kv * a) 1 b.
Lemma product_set b k n m : dget b k = Some n -> 0 <= n -> m = n + 1 -> product (dset b k m) = k * product b.
Proof. intros G N ->. induction b as [|[k' n'] b IH]; [discriminate|]. cbn [dget dset] in *. destruct (Z.eqb_spec k k') as [<-|]; cbn [product fold_right fst snd]; fold (product b).
  - injection G as ->. rewrite Z.pow_add_r by lia. rewrite Z.pow_1_r. ring.
  - fold (product (dset b k (n + 1))). rewrite (IH G). ring. Qed.
Lemma product_new b k : dget b k = None -> product (dset b k 1) = k * product b.
Proof. intros G. induction b as [|[k' n'] b IH]; cbn [dget dset product fold_right fst snd] in *; [lia|]. destruct (Z.eqb_spec k k') as [<-|]; [discriminate|]. cbn [product fold_right fst snd]. fold (product b) (product (dset b k 1)). rewrite (IH G). ring. Qed.
Lemma product_bins (p : qprogram) : product (bins_of p) = ways p.
Proof. unfold bins_of. assert (G : forall d, (forall k n, dget d k = Some n -> 0 <= n) -> product (fold_left add_bin (dvalues p) d) = product d * ways p); [|rewrite G by discriminate; unfold product; cbn [fold_right]; lia].
  induction p as [|[a v] p IH]; intros d P; cbn [dvalues map fold_left snd ways fold_right]; [lia|]. fold (dvalues p) (ways p). rewrite IH.
  - unfold add_bin. destruct (dget d (Z.of_nat (length v))) as [n|] eqn:E; [rewrite (product_set d _ n) by (try assumption; try reflexivity; eapply P, E)|rewrite product_new by exact E]; ring.
  - intros k n. unfold add_bin. destruct (dget d (Z.of_nat (length v))) as [n0|] eqn:E; rewrite dget_dset; destruct (k =? Z.of_nat (length v)); intros X; try (injection X as <-); try (eapply P, X); [specialize (P _ _ E); lia|lia]. Qed.
Lemma sum_product b : b <> [] -> NoDup (dkeys b) -> (forall k n, In (k, n) b -> 1 <= k /\ 1 <= n) ->
  1 <= product b /\ amount_of b <= product b + 1 /\ (product b = 1 -> amount_of b = 1) /\ (~ In 1 (dkeys b) -> amount_of b <= product b /\ 2 <= product b).
Proof. intros Ne N P. rewrite amount_sum. induction b as [|[k n] b IH]; [contradiction|]. clear Ne. cbn [dkeys map fst] in N. fold (dkeys b) in N. apply NoDup_cons_iff in N as [N1 N2].
  destruct (P k n ltac:(left; reflexivity)) as [K1 K2]. cbn [fold_right fst snd product dkeys map]. fold (product b) (dkeys b).
  assert (T2 : k <> 1 -> 2 <= k ^ n). { intros X. apply Z.le_trans with (k ^ 1); [rewrite Z.pow_1_r; lia|apply Z.pow_le_mono_r; lia]. }
  assert (T1 : k = 1 -> k ^ n = 1) by (intros ->; apply Z.pow_1_l; lia). set (t := k ^ n) in *. clearbody t.
  destruct b as [|kv b].
  - cbn [fold_right product]. destruct (Z.eq_dec k 1) as [X|X]; [specialize (T1 X)|specialize (T2 X)]; (split; [lia|]); (split; [lia|]); (split; [lia|]); intros Y; [exfalso; apply Y; left; exact X|split; lia].
  - destruct (IH ltac:(discriminate) N2) as (I1 & I2 & I3 & I4); [intros; apply P; right; assumption|]. set (b' := kv :: b) in *. set (s := fold_right (fun kv a => fst kv ^ snd kv + a) 0 b') in *. set (q := product b') in *. clearbody s q.
    destruct (Z.eq_dec k 1) as [X|X]; [specialize (T1 X)|specialize (T2 X)].
    + rewrite X in N1. destruct (I4 N1) as [I5 I6]. subst t. split; [lia|]. split; [lia|]. split; [lia|]. intros Y. exfalso. apply Y. left. exact X.
    + split; [nia|]. split; [destruct (Z.eq_dec q 1) as [Q|Q]; [specialize (I3 Q); subst; lia|nia]|]. split; [nia|]. intros Y. destruct (I4 ltac:(intros Z0; apply Y; right; exact Z0)) as [I5 I6]. split; nia. Qed.
Lemma ways_seen view p : ways (seen view p) = choices p.
Proof. unfold ways, choices, seen, sizes. induction p as [|[k v] p IH]; [reflexivity|]. cbn [map fold_right snd]. rewrite IH, map_length. reflexivity. Qed.
Lemma choices_le l l' : Forall2 le l l' -> 0 <= fold_right (fun n a => Z.of_nat n * a) 1 l <= fold_right (fun n a => Z.of_nat n * a) 1 l'.
Proof. induction 1 as [|a b l l' L _ IH]; [cbn; lia|]. cbn [fold_right]. nia. Qed.
Theorem C172_count_partial : forall view m col fns p p' n, run m col fns p = Ok (p', n) -> p <> [] -> (forall a v, In (a, v) p' -> v <> []) ->
  exists after, count_of (seen view p') = Ok (Some after) /\ 1 <= after <= choices p' + 1 /\ choices p' <= choices p.
Proof. intros view m col fns p p' n E Np Ne. exists (amount_of (bins_of (seen view p'))). split; [reflexivity|]. pose proof (run_sizes _ _ _ _ _ _ E) as F. split; [|apply (choices_le _ _ F)].
  assert (Np' : seen view p' <> []). { intros X. assert (p' = []) as -> by (destruct p'; [reflexivity|discriminate]). inversion F as [Z0|]; subst. destruct p; [contradiction|discriminate]. }
  assert (In' : forall k n, In (k, n) (bins_of (seen view p')) -> 1 <= k /\ 1 <= n).
  { intros k i J. assert (N : NoDup (dkeys (bins_of (seen view p')))) by (apply bins_nodup; constructor). pose proof (bins_exact (seen view p') k) as X. rewrite (dget_nodup_in _ _ _ N J) in X. destruct (with_candidates (seen view p') k =? 0)%nat eqn:Z0; [discriminate|]. injection X as ->. split; [|lia].
    unfold with_candidates in Z0. destruct (filter _ (seen view p')) as [|[b w] l] eqn:Fl; [discriminate|]. assert (Y : In (b, w) ((b, w) :: l)) by (left; reflexivity). rewrite <- Fl in Y. apply filter_In in Y as [Y1 Y2]. cbn [snd] in Y2.
    unfold seen in Y1. apply in_map_iff in Y1 as ([a v] & Q & I). cbn [fst snd] in Q. injection Q as <- <-. specialize (Ne a v I). destruct v; [contradiction|]. cbn [map length] in Y2. lia. }
  destruct (sum_product (bins_of (seen view p'))) as (S1 & S2 & _).
  - intros X. destruct (seen view p') as [|[a v] q]; [contradiction|]. pose proof (bins_exact ((a, v) :: q) (Z.of_nat (length v))) as Y. rewrite X in Y. unfold with_candidates in Y. cbn [filter snd dget] in Y. rewrite Z.eqb_refl in Y. discriminate.
  - apply bins_nodup. constructor.
  - exact In'.
  - rewrite product_bins, ways_seen in S1, S2. split; [|exact S2]. destruct (Z.le_gt_cases 1 (amount_of (bins_of (seen view p')))) as [|L]; [assumption|exfalso].
    rewrite amount_sum in L. assert (G : forall b, (forall k n, In (k, n) b -> 1 <= k /\ 1 <= n) -> Z.of_nat (length b) <= fold_right (fun kv a => fst kv ^ snd kv + a) 0 b).
    { clear. induction b as [|[k n] b IH]; intros P; [cbn; lia|]. destruct (P k n ltac:(left; reflexivity)). cbn [fold_right fst snd length]. specialize (IH ltac:(intros; apply P; right; assumption)). pose proof (Z.pow_pos_nonneg k n ltac:(lia) ltac:(lia)). lia. }
    specialize (G _ In'). destruct (bins_of (seen view p')) as [|kv b] eqn:B; [|cbn [length] in G; lia].
    destruct (seen view p') as [|[a v] q]; [contradiction|]. pose proof (bins_exact ((a, v) :: q) (Z.of_nat (length v))) as Y. rewrite B in Y. unfold with_candidates in Y. cbn [filter snd dget] in Y. rewrite Z.eqb_refl in Y. discriminate. Qed.
Print Assumptions C172_count_partial.
(** The run of the refutation: 12 choices become 9, the count 9 is below 12 + 1. *)
Example C172_example : exists p' n, run default_model (collect new_collector calm_orig) [(4, (4, 8))] three_four = Ok (p', n) /\ choices three_four = 12 /\ choices p' = 9 /\ sizes p' = [3; 3]%nat.
Proof. do 2 eexists. split; [vm_compute; reflexivity|]. split; [reflexivity|]. split; reflexivity. Qed.
