(** C54, C55, C73, C74: solution quality. *)
From Verif Require Import ListLemmas QualityModel.
From Coq Require Import ZifyBool ZifyNat Permutation Sorted Lqa Lra.

(** Number of addresses with k candidates; ways to pick one candidate per address. *)
Definition with_candidates (p : qprogram) (k : Z) : nat := length (filter (fun kv => Z.of_nat (length (snd kv)) =? k) p).
Definition ways (p : qprogram) : Z := fold_right (fun kv n => Z.of_nat (length (snd kv)) * n) 1 p.

Lemma bins_get l : forall d k, let m := length (filter (fun v : list qcand => Z.of_nat (length v) =? k) l) in
  dget (fold_left add_bin l d) k = match dget d k with Some n => Some (n + Z.of_nat m) | None => if (m =? 0)%nat then None else Some (Z.of_nat m) end.
Proof. induction l as [|v l IH]; intros d k; cbn [fold_left filter]; cbv zeta.
  - destruct (dget d k); cbn [length Nat.eqb]; [f_equal; lia|reflexivity].
  - rewrite IH. unfold add_bin. destruct (Z.of_nat (length v) =? k) eqn:E; cbn [length].
    + assert (Z.of_nat (length v) = k) as -> by lia. destruct (dget d k) as [n|]; rewrite dget_dset_same; [f_equal; lia|]. cbn [Nat.eqb]. f_equal. lia.
    + assert (X : k <> Z.of_nat (length v)) by lia. destruct (dget d (Z.of_nat (length v))); rewrite dget_dset_other by exact X; reflexivity. Qed.
Lemma bins_nodup l : forall d, NoDup (dkeys d) -> NoDup (dkeys (fold_left add_bin l d)).
Proof. induction l as [|v l IH]; intros d N; [exact N|]. cbn [fold_left]. apply IH. unfold add_bin. destruct (dget d _); apply dset_nodup, N. Qed.
Lemma bins_exact p k : dget (bins_of p) k = if (with_candidates p k =? 0)%nat then None else Some (Z.of_nat (with_candidates p k)).
Proof. unfold bins_of. rewrite bins_get. cbn [dget]. assert (E : length (filter (fun v : list qcand => Z.of_nat (length v) =? k) (dvalues p)) = with_candidates p k); [|rewrite E; reflexivity].
  unfold with_candidates, dvalues. induction p as [|[a v] p IH]; [reflexivity|]. cbn [map filter snd]. destruct (Z.of_nat (length v) =? k); cbn [length]; rewrite IH; reflexivity. Qed.

(** C54.  Refuted: sizes are summed, not multiplied. *)
Definition c1 := mkQ 5 0 1%Q.
Definition two_three : qprogram := [(0, [c1; c1]); (4, [c1; c1; c1])].
Theorem C54_count_refuted : exists p, snd (solution_count (new_quality p)) <> Ok (Some (ways p)).
Proof. exists two_three. vm_compute. discriminate. Qed.
Print Assumptions C54_count_refuted.
(** What it is: the sum over the different sizes k of k^(addresses with k
    candidates); this is the number of ways if all sizes are the same. *)
Lemma amount_sum bins : amount_of bins = fold_right (fun kv a => fst kv ^ snd kv + a) 0 bins.
Proof. unfold amount_of. assert (G : forall a, fold_left (fun a kv => a + fst kv ^ snd kv) bins a = a + fold_right (fun kv a => fst kv ^ snd kv + a) 0 bins); [|rewrite G; reflexivity].
  induction bins as [|kv b IH]; intros a; cbn [fold_left fold_right]; [lia|]. rewrite IH. lia. Qed.
Theorem C54_count_partial : forall p, 
  (exists sizes, NoDup sizes /\ (forall k, In k sizes <-> exists a v, In (a, v) p /\ Z.of_nat (length v) = k) /\
     snd (solution_count (new_quality p)) = Ok (Some (fold_right (fun k a => k ^ Z.of_nat (with_candidates p k) + a) 0 sizes))) /\
  (forall k, p <> [] -> (forall a v, In (a, v) p -> Z.of_nat (length v) = k) -> snd (solution_count (new_quality p)) = Ok (Some (ways p)) /\ ways p = k ^ Z.of_nat (length p)).
Proof. intros p. assert (Main : exists sizes, NoDup sizes /\ (forall k, In k sizes <-> exists a v, In (a, v) p /\ Z.of_nat (length v) = k) /\
     snd (solution_count (new_quality p)) = Ok (Some (fold_right (fun k a => k ^ Z.of_nat (with_candidates p k) + a) 0 sizes))).
  { pose proof (bins_nodup (dvalues p) [] (NoDup_nil Z)) as N. fold (bins_of p) in N. exists (dkeys (bins_of p)). split; [exact N|]. split.
    - intros k. rewrite dget_some_in. rewrite bins_exact. split.
      + intros (n & H). destruct (with_candidates p k =? 0)%nat eqn:E; [discriminate|]. unfold with_candidates in E. destruct (filter _ p) as [|[a v] l] eqn:Ef; [cbn in E; lia|].
        assert (I : In (a, v) (filter (fun kv => Z.of_nat (length (snd kv)) =? k) p)) by (rewrite Ef; left; reflexivity). apply filter_In in I. destruct I as [I X]. cbn [snd] in X. exists a, v. split; [exact I|lia].
      + intros (a & v & I & E). destruct (with_candidates p k =? 0)%nat eqn:Ez; [|eauto]. exfalso. unfold with_candidates in Ez. assert (X : In (a, v) (filter (fun kv => Z.of_nat (length (snd kv)) =? k) p)) by (apply filter_In; split; [exact I|cbn [snd]; lia]).
        destruct (filter _ p); [destruct X|cbn in Ez; lia].
    - cbn [solution_count new_quality qu_count snd count_solutions qu_prog]. rewrite amount_sum. f_equal. f_equal.
      assert (V : forall k n, In (k, n) (bins_of p) -> n = Z.of_nat (with_candidates p k)). { intros k n I. apply (dget_nodup_in _ _ _ N) in I. rewrite bins_exact in I. destruct (_ =? _)%nat; congruence. }
      clear N. unfold dkeys. induction (bins_of p) as [|[k n] b IH]; [reflexivity|]. cbn [fold_right map fst snd]. rewrite IH by (intros; apply V; right; assumption). rewrite (V k n) by (left; reflexivity). reflexivity. }
  split; [exact Main|]. intros k Np H. destruct Main as (sizes & N & I & E). destruct p as [|[a0 v0] p0] eqn:Ep; [contradiction|]. rewrite <- Ep in *.
  assert (sizes = [k]) as ->.
  { assert (J : forall k', In k' sizes <-> k' = k). { intros k'. rewrite I. split; [intros (a & v & X & Y); rewrite <- Y; apply (H a v X)|intros ->; exists a0, v0; split; [rewrite Ep; left; reflexivity|apply (H a0); rewrite Ep; left; reflexivity]]. }
    destruct sizes as [|x l]; [exfalso; apply (proj2 (J k) eq_refl)|]. assert (x = k) as -> by (apply J; left; reflexivity). f_equal. destruct l as [|y l]; [reflexivity|]. exfalso. assert (y = k) as -> by (apply J; right; left; reflexivity). inversion N as [|? ? Z _]; subst. apply Z. left; reflexivity. }
  assert (W : ways p = k ^ Z.of_nat (length p)).
  { clear - H. induction p as [|[a v] p IH]; [reflexivity|]. cbn [ways fold_right length snd]. fold (ways p). rewrite IH by (intros; eapply H; right; eassumption). rewrite (H a v) by (left; reflexivity). rewrite Nat2Z.inj_succ, Z.pow_succ_r by lia. reflexivity. }
  assert (C : with_candidates p k = length p).
  { clear - H. unfold with_candidates. induction p as [|[a v] p IH]; [reflexivity|]. cbn [filter snd]. rewrite (H a v) by (left; reflexivity). rewrite Z.eqb_refl. cbn [length]. f_equal. apply IH. intros; eapply H; right; eassumption. }
  split; [|exact W]. rewrite E. cbn [fold_right]. rewrite C, W. f_equal. f_equal. lia. Qed.
Print Assumptions C54_count_partial.
Example C54_example : snd (solution_count (new_quality two_three)) = Ok (Some 5) /\ ways two_three = 6 /\
  snd (solution_count (new_quality [(0, [c1; c1]); (4, [c1; c1]); (8, [c1; c1])])) = Ok (Some 8).
Proof. vm_compute. auto. Qed.

(** C55.  Over the real numbers. *)
Definition weight (kv : Z * Z) : R := if 1 <? fst kv then (ln (IZR (fst kv)) / ln 2 * IZR (snd kv))%R else 0%R.
Lemma size_sum bins : size_of bins = fold_right (fun kv s => (weight kv + s)%R) 0%R bins.
Proof. unfold size_of. assert (G : forall s, fold_left (fun s kv => if 1 <? fst kv then (s + ln (IZR (fst kv)) / ln 2 * IZR (snd kv))%R else s) bins s = (s + fold_right (fun kv s => weight kv + s) 0 bins)%R); [|rewrite G; ring].
  induction bins as [|kv b IH]; intros s; cbn [fold_left fold_right]; [ring|]. rewrite IH. unfold weight. destruct (1 <? fst kv); ring. Qed.
Lemma size_add bins v : size_of (add_bin bins v) = (size_of bins + weight (Z.of_nat (length v), 1%Z))%R.
Proof. rewrite !size_sum. unfold add_bin. set (k := Z.of_nat (length v)). assert (G : forall n, dget bins k = Some n -> fold_right (fun kv s => (weight kv + s)%R) 0%R (dset bins k (n + 1)) = (fold_right (fun kv s => weight kv + s) 0 bins + weight (k, 1%Z))%R).
  { induction bins as [|[k' m] b IH]; intros n H; [discriminate|]. cbn [dget dset] in *. destruct (k =? k') eqn:E.
    - injection H as ->. assert (k' = k) as -> by lia. cbn [fold_right]. unfold weight. cbn [fst snd]. destruct (1 <? k); [|ring]. rewrite plus_IZR. ring.
    - cbn [fold_right]. rewrite (IH n H). ring. }
  destruct (dget bins k) as [n|] eqn:E; [apply G; reflexivity|]. clear G. induction bins as [|[k' m] b IH]; cbn [dset fold_right]; [unfold weight; ring|]. cbn [dget] in E. destruct (k =? k'); [discriminate|]. cbn [fold_right]. rewrite (IH E). ring. Qed.
Lemma ways_pos p : (forall a v, In (a, v) p -> v <> []) -> 0 < ways p.
Proof. induction p as [|[a v] p IH]; intros H; [reflexivity|]. cbn [ways fold_right snd]. fold (ways p). assert (v <> []) by (apply (H a); left; reflexivity). assert (0 < ways p) by (apply IH; intros; eapply H; right; eassumption). destruct v; [contradiction|]. cbn [length]. nia. Qed.
Theorem C55_size : forall p, (forall a v, In (a, v) p -> v <> []) ->
  snd (solution_size (new_quality p)) = Ok (Some (ln (IZR (ways p)) / ln 2)%R) /\
  forall k, dget (snd (solution_count_bins (new_quality p))) k = (if (with_candidates p k =? 0)%nat then None else Some (Z.of_nat (with_candidates p k))).
Proof. intros p H. split; [|intros k; apply bins_exact].
  assert (S : size_of (bins_of p) = (ln (IZR (ways p)) / ln 2)%R).
  { unfold bins_of. assert (G : forall d, size_of (fold_left add_bin (dvalues p) d) = (size_of d + ln (IZR (ways p)) / ln 2)%R); [|rewrite G; unfold size_of; cbn [fold_left]; ring].
    induction p as [|[a v] p IH]; intros d; cbn [dvalues map fold_left snd]. { cbn [ways fold_right]. rewrite ln_1. unfold Rdiv. ring. }
    fold (dvalues p). rewrite IH by (intros; eapply H; right; eassumption). rewrite size_add. cbn [ways fold_right snd]. fold (ways p). 
    assert (P : 0 < ways p) by (apply ways_pos; intros; eapply H; right; eassumption). assert (V : v <> []) by (apply (H a); left; reflexivity). assert (L : 0 < Z.of_nat (length v)) by (destruct v; [contradiction|cbn [length]; lia]).
    rewrite mult_IZR, ln_mult by (apply IZR_lt; assumption). unfold weight. cbn [fst snd]. destruct (1 <? Z.of_nat (length v)) eqn:E; [unfold Rdiv; ring|]. assert (Z.of_nat (length v) = 1) as -> by lia. rewrite ln_1. unfold Rdiv. ring. }
  assert (U : snd (solution_size (new_quality p)) = Ok (match amount_of (bins_of p) with 0 => Some 0%R | _ => Some (size_of (bins_of p)) end)) by reflexivity. rewrite U, S. clear U S.
  destruct p as [|[a v] p0] eqn:Ep.
  - change (ways []) with 1. rewrite ln_1. change (amount_of (bins_of [])) with 0. cbv iota. f_equal. f_equal. unfold Rdiv. ring.
  - rewrite <- Ep in *. assert (A : 0 < amount_of (bins_of p)).
    { assert (V : v <> []) by (apply (H a); rewrite Ep; left; reflexivity). assert (P : forall k n, In (k, n) (bins_of p) -> 0 <= k /\ 0 < n).
      { intros k n I. pose proof (bins_nodup (dvalues p) [] (NoDup_nil Z)) as N. apply (dget_nodup_in _ _ _ N) in I. fold (bins_of p) in I. rewrite bins_exact in I. destruct (with_candidates p k =? 0)%nat eqn:E; [discriminate|]. injection I as <-. split; [|lia].
        unfold with_candidates in E. destruct (filter _ p) as [|[a' v'] l] eqn:Ef; [cbn in E; lia|]. assert (I : In (a', v') (filter (fun kv => Z.of_nat (length (snd kv)) =? k) p)) by (rewrite Ef; left; reflexivity). apply filter_In in I. cbn [snd] in I. lia. }
      assert (I : exists n, In (Z.of_nat (length v), n) (bins_of p)).
      { assert (W : (with_candidates p (Z.of_nat (length v)) =? 0)%nat = false). { unfold with_candidates. rewrite Ep. cbn [filter snd]. rewrite Z.eqb_refl. cbn [length]. lia. }
        exists (Z.of_nat (with_candidates p (Z.of_nat (length v)))). apply dget_in. rewrite bins_exact, W. reflexivity. }
      destruct I as (n & I). rewrite amount_sum. assert (G : forall b, (forall k n, In (k, n) b -> 0 <= k /\ 0 < n) -> 0 <= fold_right (fun kv a => fst kv ^ snd kv + a) 0 b /\ (In (Z.of_nat (length v), n) b -> 0 < fold_right (fun kv a => fst kv ^ snd kv + a) 0 b)).
      { clear I P. induction b as [|[k m] b IH]; intros P; [split; [cbn; lia|intros []]|]. destruct IH as [I1 I2]; [intros; apply P; right; assumption|]. cbn [fold_right fst snd]. destruct (P k m ltac:(left; reflexivity)) as [K M].
        assert (0 <= k ^ m) by (apply Z.pow_nonneg; exact K). split; [lia|]. intros [E|I]; [|specialize (I2 I); lia]. injection E as -> ->. assert (0 < Z.of_nat (length v) ^ n) by (apply Z.pow_pos_nonneg; [destruct v; [contradiction|cbn [length]; lia]|lia]). lia. }
      apply (proj2 (G (bins_of p) P)), I. }
    destruct (amount_of (bins_of p)); [lia|reflexivity|lia]. Qed.
Print Assumptions C55_size.
Example C55_example : ways two_three = 6 /\ bins_of two_three = [(2, 1); (3, 1)] /\ bins_of (two_three ++ [(8, [c1; c1])]) = [(2, 2); (3, 1)].
Proof. vm_compute. auto. Qed.

(** C73.  The rank of the original: how many candidates are ahead of the first
    candidate printed like it.  It is determined up to ties in the sorting key. *)
Definition least (v : list qcand) : Z := fold_right Z.min (2 ^ 63 - 1) (map q_enc v).
Definition worth (v : list qcand) (c : qcand) : Q := if least v =? 0 then 0%Q else (q_score c * 1000000000 + inject_Z (least v) / inject_Z (q_enc c))%Q.
Definition better (v : list qcand) (c d : qcand) : bool := negb (Qle_bool (worth v c) (worth v d)).
Definition rank_of (v : list qcand) (text : Z) (i : nat) : Prop :=
  ((forall c, In c v -> q_text c <> text) /\ i = length v) \/
  exists c, In c v /\ q_text c = text /\
    (forall d, In d v -> q_text d = text -> better v d c = false) /\
    (length (filter (fun d => better v d c) v) <= i < length (filter (fun d => negb (better v c d)) v))%nat.

Lemma least_min v : least v = min_encoding v.
Proof. unfold min_encoding, least. change 9223372036854775807 with (2 ^ 63 - 1). set (f := fun m c => if q_enc c <? m then q_enc c else m). generalize (2 ^ 63 - 1). induction v as [|c v IH]; intros m; [reflexivity|]. cbn [map fold_right fold_left]. rewrite <- IH.
  assert (G : forall x, fold_right Z.min (Z.min m x) (map q_enc v) = Z.min x (fold_right Z.min m (map q_enc v))) by (clear; intros x; induction v as [|y v IH]; cbn [map fold_right]; [lia|rewrite IH; lia]).
  rewrite <- G. f_equal. unfold f. destruct (q_enc c <? m) eqn:E; lia. Qed.
Lemma better_key v c d : better v c d = negb (Qle_bool (key (min_encoding v) c) (key (min_encoding v) d)).
Proof. unfold better, worth, key. rewrite least_min. reflexivity. Qed.
Lemma insert_desc_perm f a l : Permutation (insert_desc f a l) (a :: l).
Proof. induction l as [|b l IH]; [apply Permutation_refl|]. cbn [insert_desc]. destruct (Qle_bool _ _); [apply Permutation_refl|]. eapply perm_trans; [apply perm_skip, IH|apply perm_swap]. Qed.
Lemma sort_desc_perm f l : Permutation (sort_desc f l) l.
Proof. induction l as [|a l IH]; [apply Permutation_refl|]. cbn [sort_desc fold_right]. eapply perm_trans; [apply insert_desc_perm|]. apply perm_skip, IH. Qed.
Definition desc f (a b : qcand) : Prop := (f b <= f a)%Q.
Lemma insert_desc_sorted (f : qcand -> Q) a l : StronglySorted (desc f) l -> StronglySorted (desc f) (insert_desc f a l).
Proof. induction l as [|b l IH]; intros S; [constructor; [exact S|constructor]|]. inversion S as [|? ? S' F]; subst. cbn [insert_desc]. destruct (Qle_bool (f b) (f a)) eqn:E.
  - apply Qle_bool_iff in E. constructor; [exact S|]. constructor; [exact E|]. eapply Forall_impl; [|exact F]. intros c Hc. unfold desc in *. eapply Qle_trans; eassumption.
  - constructor; [apply IH; exact S'|]. eapply Permutation_Forall; [apply Permutation_sym, insert_desc_perm|]. constructor; [|exact F]. unfold desc. destruct (Qlt_le_dec (f a) (f b)) as [L|L]; [apply Qlt_le_weak, L|]. apply Qle_bool_iff in L. congruence. Qed.
Lemma sort_desc_sorted f l : StronglySorted (desc f) (sort_desc f l).
Proof. induction l as [|a l IH]; [constructor|]. apply insert_desc_sorted, IH. Qed.
Lemma min_fold l : forall m, (fold_left (fun m c => if q_enc c <? m then q_enc c else m) l m <= m)%Z /\ (forall c, In c l -> fold_left (fun m c => if q_enc c <? m then q_enc c else m) l m <= q_enc c) /\
  (fold_left (fun m c => if q_enc c <? m then q_enc c else m) l m = m \/ exists c, In c l /\ fold_left (fun m c => if q_enc c <? m then q_enc c else m) l m = q_enc c).
Proof. induction l as [|a l IH]; intros m; cbn [fold_left]; [split; [lia|]; split; [intros ? []|left; reflexivity]|].
  destruct (IH (if q_enc a <? m then q_enc a else m)) as (A & B & C). split; [destruct (q_enc a <? m) eqn:?; lia|]. split.
  - intros c [->|I]; [|apply B, I]. destruct (q_enc c <? m) eqn:?; lia.
  - destruct C as [C|(c & I & C)]; [|right; exists c; split; [right; exact I|exact C]]. rewrite C. destruct (q_enc a <? m); [right; exists a; split; [left; reflexivity|reflexivity]|left; reflexivity]. Qed.
Lemma min_encoding_perm l l' : Permutation l l' -> min_encoding l = min_encoding l'.
Proof. intros P. unfold min_encoding. destruct (min_fold l 9223372036854775807) as (A & B & C), (min_fold l' 9223372036854775807) as (A' & B' & C').
  set (x := fold_left _ l _) in *. set (y := fold_left _ l' _) in *. 
  assert (x <= y). { destruct C' as [->|(c & I & ->)]; [exact A|]. apply B. eapply Permutation_in; [apply Permutation_sym, P|exact I]. }
  assert (y <= x). { destruct C as [->|(c & I & ->)]; [exact A'|]. apply B'. eapply Permutation_in; [apply P|exact I]. } lia. Qed.
Lemma filter_len_perm {A} (f : A -> bool) l l' : Permutation l l' -> length (filter f l) = length (filter f l').
Proof. induction 1; cbn [filter]; [reflexivity| | |congruence]; repeat match goal with |- context[f ?a] => destruct (f a) end; cbn [length]; lia. Qed.
Lemma rank_perm v w text i : Permutation v w -> rank_of v text i -> rank_of w text i.
Proof. intros P. assert (Bt : forall c d, better v c d = better w c d) by (intros; rewrite !better_key, (min_encoding_perm _ _ P); reflexivity). intros [[H ->]|(c & I & T & M & L)].
  - left. split; [intros c I; apply H; eapply Permutation_in; [apply Permutation_sym, P|exact I]|]. apply Permutation_length, P.
  - right. exists c. split; [eapply Permutation_in; [apply P|exact I]|]. split; [exact T|]. split; [intros d J E; rewrite <- Bt; apply M; [eapply Permutation_in; [apply Permutation_sym, P|exact J]|exact E]|].
    rewrite <- (filter_len_perm _ _ _ P), <- (filter_len_perm (fun d => negb (better w c d)) _ _ P). rewrite (filter_ext _ (fun d => better v d c)) by (intros; symmetry; apply Bt). rewrite (filter_ext (fun d => negb (better w c d)) (fun d => negb (better v c d))) by (intros; rewrite Bt; reflexivity). exact L. Qed.
Lemma depth_split v text : (depth_in v text = length v /\ forall c, In c v -> q_text c <> text) \/
  exists pre c post, v = pre ++ c :: post /\ q_text c = text /\ (forall d, In d pre -> q_text d <> text) /\ depth_in v text = length pre.
Proof. induction v as [|c v IH]; [left; split; [reflexivity|intros ? []]|]. cbn [depth_in]. destruct (q_text c =? text) eqn:E.
  - right. exists [], c, v. split; [reflexivity|]. split; [lia|]. split; [intros ? []|reflexivity].
  - destruct IH as [[H1 H2]|(pre & d & post & -> & T & N & D)].
    + left. split; [cbn [length]; lia|]. intros d [<-|I]; [lia|apply H2, I].
    + right. exists (c :: pre), d, post. split; [reflexivity|]. split; [exact T|]. split; [intros x [<-|I]; [lia|apply N, I]|cbn [length]; lia]. Qed.
Lemma filter_none {A} (f : A -> bool) l : (forall x, In x l -> f x = false) -> filter f l = [].
Proof. induction l as [|a l IH]; intros H; [reflexivity|]. cbn [filter]. rewrite (H a) by (left; reflexivity). apply IH. intros; apply H; right; assumption. Qed.
Lemma filter_every {A} (f : A -> bool) l : (forall x, In x l -> f x = true) -> filter f l = l.
Proof. induction l as [|a l IH]; intros H; [reflexivity|]. cbn [filter]. rewrite (H a) by (left; reflexivity). f_equal. apply IH. intros; apply H; right; assumption. Qed.
Lemma filter_le {A} (f : A -> bool) l : (length (filter f l) <= length l)%nat.
Proof. induction l as [|a l IH]; [cbn; lia|]. cbn [filter]. destruct (f a); cbn [length]; lia. Qed.
Lemma ss_app {A} (R : A -> A -> Prop) l1 l2 : StronglySorted R (l1 ++ l2) -> StronglySorted R l2 /\ forall a b, In a l1 -> In b l2 -> R a b.
Proof. induction l1 as [|x l1 IH]; cbn [app]; intros S; [split; [exact S|intros ? ? []]|]. inversion S as [|? ? S' F]; subst. destruct (IH S') as [S2 B]. split; [exact S2|].
  intros a b [<-|I] J; [|apply B; assumption]. rewrite Forall_forall in F. apply F. apply in_or_app. right. exact J. Qed.
Lemma rank_sorted v text : rank_of v text (depth_in (sorted_candidates v) text).
Proof. assert (P : Permutation (sorted_candidates v) v) by apply sort_desc_perm. apply (rank_perm _ _ _ _ P).
  assert (S : StronglySorted (desc (key (min_encoding (sorted_candidates v)))) (sorted_candidates v)) by (rewrite (min_encoding_perm _ _ P); apply sort_desc_sorted).
  set (s := sorted_candidates v) in *. clearbody s. clear P v. unfold rank_of. destruct (depth_split s text) as [[D N]|(pre & c & post & E & T & N & D)]; [left; split; [exact N|exact D]|right].
  assert (Bl : forall a b, desc (key (min_encoding s)) a b -> better s b a = false). { intros a b H. rewrite better_key. unfold desc in H. apply Qle_bool_iff in H. rewrite H. reflexivity. }
  assert (Bp : forall d, In d post -> better s d c = false). { intros d I. apply Bl. rewrite E in S at 2. apply ss_app in S. destruct S as [S _]. inversion S as [|? ? _ F]; subst. rewrite Forall_forall in F. apply F, I. }
  assert (Bq : forall d, In d pre -> better s c d = false). { intros d I. apply Bl. rewrite E in S at 2. apply ss_app in S. destruct S as [_ B]. apply B; [exact I|left; reflexivity]. }
  assert (Bc : better s c c = false). { apply Bl. unfold desc. apply Qle_refl. }
  exists c. split; [rewrite E; apply in_or_app; right; left; reflexivity|]. split; [exact T|]. split.
  - intros d I Td. rewrite E in I. apply in_app_or in I. destruct I as [I|[<-|I]]; [exfalso; exact (N d I Td)|exact Bc|apply Bp, I].
  - rewrite D. assert (Fe : forall F : qcand -> bool, filter F s = filter F (pre ++ c :: post)) by (intros; rewrite <- E; reflexivity). rewrite !Fe, !filter_app. cbn [filter]. rewrite Bc. cbn [negb]. rewrite (filter_none _ post) by exact Bp. rewrite (filter_every (fun d => negb (better s c d)) pre) by (intros d I; rewrite (Bq d I); reflexivity).
    rewrite !app_length. pose proof (filter_le (fun d => better s d c) pre). cbn [length]. lia. Qed.

(** Programs that differ in the order of the candidates only. *)
Definition reordered (p q : qprogram) : Prop := dkeys q = dkeys p /\ forall a v, dget p a = Some v -> exists w, dget q a = Some w /\ Permutation w v.
Definition depth_at (p : qprogram) (o : qorig) (r : Q) : Prop :=
  exists v i, dget p (o_addr o) = Some v /\ v <> [] /\ rank_of v (o_text o) i /\ (r == inject_Z (Z.of_nat i + 1) / inject_Z (Z.of_nat (length v)))%Q.
Lemma depth_at_perm p q o r : dkeys q = dkeys p -> reordered p q -> depth_at q o r -> depth_at p o r.
Proof. intros K [_ H] (w & i & G & N & R & E). assert (I : In (o_addr o) (dkeys p)) by (rewrite <- K; apply dget_some_in; eauto). apply dget_some_in in I. destruct I as (v & Gv). destruct (H _ _ Gv) as (w' & Gw & P). assert (w' = w) as -> by congruence.
  exists v, i. split; [exact Gv|]. split; [intros ->; apply Permutation_sym, Permutation_nil in P; contradiction|]. split; [eapply rank_perm; eassumption|]. rewrite <- (Permutation_length P). exact E. Qed.

Lemma evaluate_steps os : forall p0 p d p' d', reordered p0 p -> (0 <= d)%Q -> foldM evaluate_one os (p, d) = Ok (p', d') ->
  reordered p0 p' /\ (d <= d')%Q /\ (forall o, In o os -> o_ignore o = false -> exists r, depth_at p0 o r /\ (r <= d')%Q) /\
  ((d' == d)%Q \/ exists o, In o os /\ o_ignore o = false /\ depth_at p0 o d').
Proof. induction os as [|o os IH]; intros p0 p d p' d' R D H; cbn [foldM] in H.
  - assert (p' = p /\ d' = d) as [-> ->] by (split; congruence). split; [exact R|]. split; [apply Qle_refl|]. split; [intros ? []|left; reflexivity].
  - unfold evaluate_one in H at 1. destruct (o_ignore o) eqn:Eo.
    + cbn [bind] in H. destruct (IH _ _ _ _ _ R D H) as (A & B & C & F). split; [exact A|]. split; [exact B|]. split; [intros x [<-|I] X; [congruence|apply C; assumption]|]. destruct F as [F|(x & I & F)]; [left; exact F|right; exists x; split; [right; exact I|exact F]].
    + unfold dget_r in H. destruct (dget p (o_addr o)) as [v|] eqn:Ev; [|discriminate]. cbn [bind] in H. pose proof (sort_desc_perm (key (min_encoding v)) v) as P. fold (sorted_candidates v) in P. destruct (length (sorted_candidates v) =? 0)%nat eqn:El; [discriminate|]. cbn [bind] in H.
      set (r := (inject_Z (Z.of_nat (depth_in (sorted_candidates v) (o_text o)) + 1) / inject_Z (Z.of_nat (length (sorted_candidates v))))%Q) in *.
      assert (R' : reordered p0 (dset p (o_addr o) (sorted_candidates v))).
      { destruct R as [K R]. split; [rewrite dkeys_dset; unfold dmem; rewrite Ev; exact K|]. intros a w G. destruct (R a w G) as (w' & G' & P'). destruct (Z.eq_dec a (o_addr o)) as [->|Na].
        - rewrite dget_dset_same. eexists. split; [reflexivity|]. assert (w' = v) as -> by congruence. eapply perm_trans; eassumption.
        - rewrite dget_dset_other by exact Na. eauto. }
      assert (Dr : depth_at p0 o r). { apply (depth_at_perm p0 p); [exact (proj1 R)|exact R|]. exists v, (depth_in (sorted_candidates v) (o_text o)). split; [exact Ev|]. split; [intros ->; cbn in El; lia|]. split; [apply rank_sorted|]. unfold r. rewrite (Permutation_length P). reflexivity. }
      set (d1 := if negb (Qle_bool r d) then r else d) in *. assert (Dd : (d <= d1 /\ r <= d1 /\ (d1 = d \/ d1 = r))%Q).
      { unfold d1. destruct (Qle_bool r d) eqn:E; cbn [negb]; [apply Qle_bool_iff in E; split; [apply Qle_refl|split; [exact E|left; reflexivity]]|]. destruct (Qlt_le_dec d r) as [L|L]; [split; [apply Qlt_le_weak, L|split; [apply Qle_refl|right; reflexivity]]|]. apply Qle_bool_iff in L. congruence. }
      destruct Dd as (D1 & D2 & D3). destruct (IH p0 _ d1 _ _ R' (Qle_trans _ _ _ D D1) H) as (A & B & C & F). split; [exact A|]. split; [eapply Qle_trans; eassumption|]. split.
      * intros x [<-|I] X; [exists r; split; [exact Dr|eapply Qle_trans; eassumption]|apply C; assumption].
      * destruct F as [F|(x & I & F)]; [|right; exists x; split; [right; exact I|exact F]]. destruct D3 as [-> | ->]; [left; exact F|]. right. exists o. split; [left; reflexivity|]. split; [exact Eo|]. destruct Dr as (w & i & Z1 & Z2 & Z3 & Z4). exists w, i. rewrite F. auto. Qed.
Lemma rank_bound v text i : rank_of v text i -> (i <= length v)%nat /\ ((i < length v)%nat <-> exists c, In c v /\ q_text c = text).
Proof. intros [[N ->]|(c & I & T & _ & L)].
  - split; [lia|]. split; [lia|]. intros (c & I & T). exfalso. exact (N c I T).
  - pose proof (filter_le (fun d => negb (better v c d)) v). split; [lia|]. split; [eauto|lia]. Qed.
Theorem C73_highest_depth : forall originals p q,
  evaluate originals (new_quality p) = Ok q ->
  reordered p (qu_prog q) /\ exists d, qu_depth q = Some d /\
    (* the largest of the ranks *)
    (forall o, In o originals -> o_ignore o = false -> exists r, depth_at p o r /\ (r <= d)%Q) /\
    ((forall o, In o originals -> o_ignore o = true) /\ (d == 0)%Q \/ exists o, In o originals /\ o_ignore o = false /\ depth_at p o d) /\
    (* at most 1 exactly if every original is there *)
    ((d <= 1)%Q <-> forall o, In o originals -> o_ignore o = false -> exists v c, dget p (o_addr o) = Some v /\ In c v /\ q_text c = o_text o).
Proof. intros os p q H. unfold evaluate in H. cbn [count_solutions new_quality qu_prog] in H. destruct (foldM evaluate_one os (p, 0%Q)) as [[p' d]|e] eqn:E; [|discriminate]. cbn [bind] in H. assert (q = mkQuality None (Some (bins_of p)) (Some (size_of (bins_of p))) (Some d) p') as -> by (injection H; intros; subst; reflexivity). clear H. cbn [qu_prog qu_depth].
  assert (R0 : reordered p p) by (split; [reflexivity|intros a v G; exists v; split; [exact G|apply Permutation_refl]]).
  destruct (evaluate_steps os p p 0%Q p' d R0 (Qle_refl 0) E) as (A & B & C & F). split; [exact A|]. exists d. split; [reflexivity|]. split; [exact C|].
  assert (One : forall o r, depth_at p o r -> (0 < r)%Q /\ ((r <= 1)%Q <-> exists v c, dget p (o_addr o) = Some v /\ In c v /\ q_text c = o_text o)).
  { intros o r (v & i & G & Nv & Rk & Er). destruct (rank_bound _ _ _ Rk) as [Bi Bx]. assert (L : (0 < length v)%nat) by (destruct v; [contradiction|cbn; lia]). 
    assert (L' : (0 < inject_Z (Z.of_nat (length v)))%Q) by (change 0%Q with (inject_Z 0); rewrite <- Zlt_Qlt; lia). split.
    - rewrite Er. apply Qlt_shift_div_l; [exact L'|]. rewrite Qmult_0_l. change 0%Q with (inject_Z 0). rewrite <- Zlt_Qlt. lia.
    - transitivity (i < length v)%nat; [|rewrite Bx; split; [intros (c & X); exists v, c; auto|intros (w & c & G' & X); assert (w = v) as -> by congruence; eauto]].
      rewrite Er. split; intros X.
      + assert (Y : (inject_Z (Z.of_nat i + 1) <= 1 * inject_Z (Z.of_nat (length v)))%Q). { apply (Qmult_le_r _ _ (/ inject_Z (Z.of_nat (length v)))); [apply Qinv_lt_0_compat, L'|]. rewrite <- Qmult_assoc, Qmult_inv_r by (intro Z0; rewrite Z0 in L'; discriminate). exact X. }
        rewrite Qmult_1_l in Y. rewrite <- Zle_Qle in Y. lia.
      + apply Qle_shift_div_r; [exact L'|]. rewrite Qmult_1_l, <- Zle_Qle. lia. }
  split.
  - destruct F as [F|F]; [|right; exact F]. left. split; [|exact F]. intros o I. destruct (o_ignore o) eqn:Eo; [reflexivity|]. exfalso. destruct (C o I Eo) as (r & Dr & Lr). destruct (One o r Dr) as [P _]. rewrite F in Lr. apply (Qlt_not_le _ _ P Lr).
  - split.
    + intros L o I Eo. destruct (C o I Eo) as (r & Dr & Lr). apply (proj2 (One o r Dr)). eapply Qle_trans; eassumption.
    + intros X. destruct F as [F|(o & I & Eo & Dr)]; [rewrite F; discriminate|]. apply (proj2 (One o d Dr)), (X o I Eo). Qed.
Print Assumptions C73_highest_depth.
(** It fails exactly when an original has no candidate list or an empty one. *)
Theorem C73_fails : forall originals p, 
  (exists q, evaluate originals (new_quality p) = Ok q) <->
  (forall o, In o originals -> o_ignore o = false -> exists c v, dget p (o_addr o) = Some (c :: v)).
Proof. intros os p. split.
  - intros (q & H) o I Eo. destruct (C73_highest_depth os p q H) as (_ & d & _ & C & _). destruct (C o I Eo) as (r & (v & i & G & N & _) & _). destruct v as [|c v]; [contradiction|]. eauto.
  - intros H. unfold evaluate. cbn [count_solutions new_quality qu_prog]. 
    assert (G : forall p d, (forall o, In o os -> o_ignore o = false -> exists c v, dget p (o_addr o) = Some (c :: v)) -> exists st, foldM evaluate_one os (p, d) = Ok st).
    { clear p H. induction os as [|o os IH]; intros p d H; cbn [foldM]; [eauto|]. unfold evaluate_one at 1. destruct (o_ignore o) eqn:Eo; cbn [bind]; [apply IH; intros; apply H; [right|]; assumption|].
      destruct (H o ltac:(left; reflexivity) Eo) as (c & v & G). unfold dget_r. rewrite G. cbn [bind]. pose proof (Permutation_length (sort_desc_perm (key (min_encoding (c :: v))) (c :: v))) as L. fold (sorted_candidates (c :: v)) in L. rewrite L. cbn [length Nat.eqb bind]. apply IH.
      intros x I X. destruct (Z.eq_dec (o_addr x) (o_addr o)) as [->|Na]; [rewrite dget_dset_same|rewrite dget_dset_other by exact Na; apply H; [right; exact I|exact X]]. destruct (sorted_candidates (c :: v)) as [|c' v']; [discriminate L|]. eauto. }
    destruct (G p 0%Q H) as ([p' d] & E). exists (mkQuality None (Some (bins_of p)) (Some (size_of (bins_of p))) (Some d) p'). cbv zeta. cbn [count_solutions new_quality qu_prog]. match goal with |- context [foldM ?f ?l ?s] => replace (foldM f l s) with (Ok (p', d)) by (symmetry; exact E) end. reflexivity. Qed.
Print Assumptions C73_fails.
Definition ranked : qprogram := [(0, [mkQ 7 1 (1#2); mkQ 8 2 (3#4); mkQ 9 3 (1#4)]); (4, [mkQ 5 9 1])].
Example C73_example : match evaluate [mkO 0 false 1; mkO 4 true 0] (new_quality ranked) with
  | Ok q => (match qu_depth q with Some d => Qeq_bool d (2#3) | None => false end, map q_text (hd [] (dvalues (qu_prog q)))) | Err _ => (false, []) end = (true, [2; 1; 3]).
Proof. vm_compute. reflexivity. Qed.

(** C74.  Refuted: evaluate() forgets the count, and the size can then not be
    asked for: it raises TypeError. *)
Theorem C74_after_evaluate_refuted : exists originals p q,
  evaluate originals (new_quality p) = Ok q /\ snd (solution_count q) <> snd (solution_count (new_quality p)) /\ snd (solution_size q) = Err TypeError.
Proof. exists [], two_three. eexists. split; [reflexivity|]. split; [|reflexivity]. vm_compute. discriminate. Qed.
Print Assumptions C74_after_evaluate_refuted.
(** This is always so; the bins stay available, if there is any address. *)
Theorem C74_after_evaluate_partial : forall originals p q, evaluate originals (new_quality p) = Ok q ->
  solution_count q = (q, Ok None) /\ solution_size q = (q, Err TypeError) /\
  (p <> [] -> snd (solution_count_bins q) = snd (solution_count_bins (new_quality p))).
Proof. intros os p q H. unfold evaluate in H. cbn [count_solutions new_quality qu_prog] in H. destruct (foldM evaluate_one os (p, 0%Q)) as [[p' d]|e] eqn:E; [|discriminate]. cbn [bind] in H. assert (q = mkQuality None (Some (bins_of p)) (Some (size_of (bins_of p))) (Some d) p') as -> by (injection H; intros; subst; reflexivity).
  split; [reflexivity|]. split; [reflexivity|]. intros N. unfold solution_count_bins. cbn [qu_bins new_quality qu_prog]. destruct (bins_of p) as [|b bs] eqn:Eb; [|reflexivity]. exfalso. destruct p as [|[a v] p]; [contradiction|].
  pose proof (bins_exact ((a, v) :: p) (Z.of_nat (length v))) as X. rewrite Eb in X. unfold with_candidates in X. cbn [filter snd] in X. rewrite Z.eqb_refl in X. discriminate X. Qed.
Print Assumptions C74_after_evaluate_partial.
Example C74_example : match evaluate [] (new_quality two_three) with Ok q => snd (solution_count_bins q) | Err _ => [] end = [(2, 1); (3, 1)].
Proof. vm_compute. reflexivity. Qed.
