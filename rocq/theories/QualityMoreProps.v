(** C169: the quality measures when there are more candidates. *)
From Verif Require Import ListLemmas QualityModel QualityProps.
From Coq Require Import ZifyBool ZifyNat Permutation Lra.

(** The same addresses, none with fewer candidates. *)
Definition at_least (p p' : qprogram) : Prop :=
  Forall2 (fun kv kv' => fst kv = fst kv' /\ (length (snd kv) <= length (snd kv'))%nat) p p'.
(** What the addresses with k candidates, n of them, add to the count. *)
Definition share (k : Z) (n : nat) : Z := if (n =? 0)%nat then 0 else k ^ Z.of_nat n.

Lemma ways_more p p' : (forall a v, In (a, v) p -> v <> []) -> at_least p p' -> 0 < ways p <= ways p' /\ (ways p = ways p' -> map (fun kv => length (snd kv)) p = map (fun kv => length (snd kv)) p').
Proof. intros H M. induction M as [|[a v] [a' v'] p p' [_ L] _ IH]; [cbn; split; [lia|reflexivity]|]. cbn [snd] in L. destruct IH as [IH1 IH2]; [intros; eapply H; right; eassumption|]. cbn [ways fold_right snd map]. fold (ways p) (ways p').
  assert (V : v <> []) by (apply (H a); left; reflexivity). assert (0 < Z.of_nat (length v)) by (destruct v; [contradiction|cbn [length]; lia]). split; [nia|]. intros E. assert (ways p = ways p') by nia. f_equal; [nia|apply IH2; assumption]. Qed.
Lemma sum_superset (g : Z -> Z) : forall small big, NoDup small -> NoDup big -> incl small big -> (forall k, In k big -> ~ In k small -> g k = 0) ->
  fold_right (fun k a => g k + a) 0 small = fold_right (fun k a => g k + a) 0 big.
Proof. assert (Pm : forall a b, Permutation a b -> fold_right (fun k a => g k + a) 0 a = fold_right (fun k a => g k + a) 0 b) by (induction 1; cbn [fold_right]; lia).
  induction small as [|s small IH]; intros big N N' I Z0.
  - cbn [fold_right]. clear - Z0. induction big as [|b big IH]; [reflexivity|]. cbn [fold_right]. rewrite <- IH by (intros k Ik; apply Z0; right; exact Ik). rewrite Z0; [reflexivity|left; reflexivity|intros []].
  - assert (Is : In s big) by (apply I; left; reflexivity). apply in_split in Is. destruct Is as (u & v & ->). rewrite (Pm (u ++ s :: v) (s :: u ++ v)) by (symmetry; apply Permutation_middle). cbn [fold_right]. f_equal.
    apply NoDup_cons_iff in N. destruct N as [N1 N2]. apply NoDup_remove in N'. destruct N' as [N3 N4]. apply IH; [exact N2|exact N3| |].
    + intros x Ix. assert (X : In x (u ++ s :: v)) by (apply I; right; exact Ix). apply in_app_or in X. apply in_or_app. destruct X as [X|[X|X]]; [left; exact X|subst; contradiction|right; exact X].
    + intros k Ik Nk. apply Z0; [apply in_app_or in Ik; apply in_or_app; destruct Ik; [left|right; right]; assumption|]. intros [->|X]; contradiction. Qed.
Lemma count_over p big : NoDup big -> (forall a v, In (a, v) p -> In (Z.of_nat (length v)) big) ->
  snd (solution_count (new_quality p)) = Ok (Some (fold_right (fun k a => share k (with_candidates p k) + a) 0 big)).
Proof. intros N B. destruct (proj1 (C54_count_partial p)) as (sizes & Ns & Hs & ->). f_equal. f_equal.
  assert (P : forall k, In k sizes <-> with_candidates p k <> 0%nat).
  { intros k. rewrite Hs. unfold with_candidates. split.
    - intros (a & v & I & E) Z0. apply length_zero_iff_nil in Z0. assert (X : In (a, v) (filter (fun kv => Z.of_nat (length (snd kv)) =? k) p)) by (apply filter_In; split; [exact I|cbn [snd]; lia]). rewrite Z0 in X. destruct X.
    - intros X. destruct (filter _ p) as [|[a v] l] eqn:Ef; [exfalso; apply X; reflexivity|]. assert (I : In (a, v) (filter (fun kv => Z.of_nat (length (snd kv)) =? k) p)) by (rewrite Ef; left; reflexivity). apply filter_In in I. destruct I as [I E]. cbn [snd] in E. exists a, v. split; [exact I|lia]. }
  transitivity (fold_right (fun k a => share k (with_candidates p k) + a) 0 sizes).
  - assert (G : forall l, incl l sizes -> fold_right (fun k a => k ^ Z.of_nat (with_candidates p k) + a) 0 l = fold_right (fun k a => share k (with_candidates p k) + a) 0 l); [|apply G, incl_refl].
    induction l as [|k l IH]; intros I; [reflexivity|]. cbn [fold_right]. rewrite IH by (intros x Ix; apply I; right; exact Ix). f_equal. unfold share. specialize (proj1 (P k) (I k ltac:(left; reflexivity))). intros X. destruct (with_candidates p k); [contradiction|reflexivity].
  - apply sum_superset; [exact Ns|exact N| |].
    + intros k Ik. apply Hs in Ik. destruct Ik as (a & v & I & <-). apply (B a v I).
    + intros k _ Nk. unfold share. assert (with_candidates p k = 0%nat) as ->; [|reflexivity]. destruct (with_candidates p k) eqn:E; [reflexivity|]. exfalso. apply Nk, P. rewrite E. discriminate. Qed.
Lemma with_at l a v r k : with_candidates (l ++ (a, v) :: r) k = Nat.add (if Z.of_nat (length v) =? k then 1%nat else 0%nat) (with_candidates (l ++ r) k).
Proof. unfold with_candidates. rewrite !filter_app, !app_length. cbn [filter snd]. destruct (Z.of_nat (length v) =? k); cbn [length]; lia. Qed.

Definition count_of (p : qprogram) : result (option Z) := snd (solution_count (new_quality p)).
Definition bits_of (p : qprogram) : result (option R) := snd (solution_size (new_quality p)).

(** Refuted: from two addresses with three candidates to one with three and one with
    four, the count drops from 9 to 7. *)
Theorem C169_more_refuted : exists p p' n m, at_least p p' /\ count_of p = Ok (Some n) /\ count_of p' = Ok (Some m) /\ m < n.
Proof. exists [(0, [c1; c1; c1]); (4, [c1; c1; c1])], [(0, [c1; c1; c1]); (4, [c1; c1; c1; c1])], 9, 7. split; [repeat constructor|]. split; [reflexivity|]. split; [reflexivity|]. reflexivity. Qed.
Print Assumptions C169_more_refuted.

(** The size in bits never drops, and stays only if no address gains a candidate. *)
Theorem C169_more_size : forall p p', (forall a v, In (a, v) p -> v <> []) -> at_least p p' ->
  exists r r', bits_of p = Ok (Some r) /\ bits_of p' = Ok (Some r') /\ (r <= r')%R /\
    (r = r' <-> map (fun kv => length (snd kv)) p = map (fun kv => length (snd kv)) p').
Proof. intros p p' H M. destruct (ways_more p p' H M) as [[W1 W2] W3].
  assert (H' : forall a v, In (a, v) p' -> v <> []).
  { clear - H M. induction M as [|[a v] [a' v'] p p' [_ L] _ IH]; intros b w I; [destruct I|]. destruct I as [E|I]; [injection E as -> ->|apply (IH ltac:(intros; eapply H; right; eassumption) b w I)]. cbn [snd] in L. intros ->. apply (H a v); [left; reflexivity|]. destruct v; [reflexivity|cbn in L; lia]. }
  exists (ln (IZR (ways p)) / ln 2)%R, (ln (IZR (ways p')) / ln 2)%R. split; [apply (proj1 (C55_size p H))|]. split; [apply (proj1 (C55_size p' H'))|].
  assert (L2 : (0 < ln 2)%R) by (rewrite <- ln_1; apply ln_increasing; lra). assert (P1 : (0 < IZR (ways p))%R) by (apply IZR_lt; exact W1). assert (P2 : (0 < IZR (ways p'))%R) by (apply IZR_lt; lia).
  destruct (Z.eq_dec (ways p) (ways p')) as [E|E].
  - rewrite E. split; [lra|]. split; [intros _; apply W3, E|reflexivity].
  - assert (Lt : (ln (IZR (ways p)) < ln (IZR (ways p')))%R) by (apply ln_increasing; [exact P1|apply IZR_lt; lia]). assert (X : (ln (IZR (ways p)) / ln 2 < ln (IZR (ways p')) / ln 2)%R) by (apply Rmult_lt_compat_r; [apply Rinv_0_lt_compat, L2|exact Lt]).
    split; [lra|]. split; [lra|]. intros Y. exfalso. apply E. clear - Y. revert p' Y. induction p as [|[a v] p IH]; intros [|[a' v'] p'] Y; try discriminate; [reflexivity|]. cbn [map snd] in Y. injection Y as Y1 Y2. cbn [ways fold_right snd]. fold (ways p) (ways p'). rewrite (IH _ Y2), Y1. reflexivity. Qed.
Print Assumptions C169_more_size.

(** The count when one address gains candidates: exactly how it changes, and never
    downwards if no other address had as many candidates. *)
Theorem C169_more_partial : forall l a v v' r, (length v < length v')%nat ->
  let k := Z.of_nat (length v) in let k' := Z.of_nat (length v') in
  let like_old := with_candidates (l ++ r) k in let like_new := with_candidates (l ++ r) k' in
  exists n m, count_of (l ++ (a, v) :: r) = Ok (Some n) /\ count_of (l ++ (a, v') :: r) = Ok (Some m) /\
    m - n = (share k' (S like_new) - share k' like_new) - (share k (S like_old) - share k like_old) /\
    (like_old = 0%nat -> n <= m).
Proof. intros l a v v' r L k k' lo ln.
  set (rest := nodup Z.eq_dec (filter (fun x => negb ((x =? k) || (x =? k'))) (map (fun kv => Z.of_nat (length (snd kv))) (l ++ r)))).
  assert (Nr : NoDup rest) by apply NoDup_nodup. assert (Ir : forall x, In x rest -> x <> k /\ x <> k') by (intros x I; apply nodup_In, filter_In in I; lia).
  assert (Nb : NoDup (k :: k' :: rest)). { constructor; [intros [E|I]; [lia|apply Ir in I; lia]|]. constructor; [intros I; apply Ir in I; lia|exact Nr]. }
  assert (Cover : forall b w, In (b, w) (l ++ r) -> In (Z.of_nat (length w)) (k :: k' :: rest)).
  { intros b w I. destruct (Z.eq_dec (Z.of_nat (length w)) k) as [E|E]; [left; congruence|]. destruct (Z.eq_dec (Z.of_nat (length w)) k') as [E'|E']; [right; left; congruence|]. right. right. apply nodup_In, filter_In. split; [|lia]. apply in_map_iff. exists (b, w). split; [reflexivity|exact I]. }
  assert (Cv : forall u, In (Z.of_nat (length u)) [k; k'] -> forall b w, In (b, w) (l ++ (a, u) :: r) -> In (Z.of_nat (length w)) (k :: k' :: rest)).
  { intros u Hu b w I. apply in_app_or in I. destruct I as [I|[I|I]]; [apply (Cover b); apply in_or_app; left; exact I|injection I as <- <-; destruct Hu as [<-|[<-|[]]]; [left|right; left]; reflexivity|apply (Cover b); apply in_or_app; right; exact I]. }
  pose proof (count_over (l ++ (a, v) :: r) _ Nb (Cv v ltac:(left; reflexivity))) as E1. pose proof (count_over (l ++ (a, v') :: r) _ Nb (Cv v' ltac:(right; left; reflexivity))) as E2.
  assert (Tail : fold_right (fun x b => share x (with_candidates (l ++ (a, v) :: r) x) + b) 0 rest = fold_right (fun x b => share x (with_candidates (l ++ (a, v') :: r) x) + b) 0 rest).
  { clear - Ir. induction rest as [|x rest IH]; [reflexivity|]. cbn [fold_right]. rewrite IH by (intros y Iy; apply Ir; right; exact Iy). destruct (Ir x ltac:(left; reflexivity)) as [X1 X2]. rewrite !with_at. fold k k'. replace (k =? x) with false by lia. replace (k' =? x) with false by lia. reflexivity. }
  cbn [fold_right] in E1, E2. rewrite Tail in E1. rewrite !with_at in E1, E2. fold k k' in E1, E2. rewrite !Z.eqb_refl in E1, E2. replace (k =? k') with false in E1 by lia. replace (k' =? k) with false in E2 by lia. fold lo ln in E1, E2. cbn [Nat.add] in E1, E2.
  eexists. eexists. split; [exact E1|]. split; [exact E2|]. generalize (fold_right (fun x b => share x (with_candidates (l ++ (a, v') :: r) x) + b) 0 rest). intros z. split; [lia|]. intros ->.
  assert (X : share k 1 = k) by (unfold share; cbn [Nat.eqb]; apply Z.pow_1_r). rewrite X. change (share k 0) with 0. assert (0 <= k) by lia. assert (k < k') by lia. clear - H H0.
  assert (share k' (S ln) - share k' ln >= k); [|lia]. unfold share. cbn [Nat.eqb]. destruct (ln =? 0)%nat eqn:E; [assert (ln = 0)%nat as -> by lia; change (Z.of_nat 1) with 1; rewrite Z.pow_1_r; lia|].
  rewrite Nat2Z.inj_succ, Z.pow_succ_r by lia. assert (1 <= k' ^ Z.of_nat ln) by (assert (0 < k' ^ Z.of_nat ln) by (apply Z.pow_pos_nonneg; lia); lia). nia. Qed.
Print Assumptions C169_more_partial.

Example C169_example : at_least [(0, [c1; c1]); (4, [c1])] [(0, [c1; c1]); (4, [c1; c1])] /\
  count_of ([(0, [c1; c1])] ++ (4, [c1]) :: []) = Ok (Some 3) /\ count_of ([(0, [c1; c1])] ++ (4, [c1; c1]) :: []) = Ok (Some 4) /\
  with_candidates ([(0, [c1; c1])] ++ []) 1 = 0%nat.
Proof. repeat split; repeat constructor. Qed.
