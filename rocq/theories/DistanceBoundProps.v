(** C35, C90 and C113, continued: how large a recorded distance can be. *)
From Verif Require Import ListLemmas FlipModel FlipProofs InstModel MetaModel MetaSpec MetaProofs MetaProps BlaumProofs RecModel RecSpec RecProofs RecProofs3 GraphProofs RulesModel RulesSpec RulesProofs RulesProofs2 RulesProofs3 RulesProofs4 RulesProofs5 RulesProofs6 RulesProofs7 RulesProps DistanceProps CountExactProps OnePassProps.
From Coq Require Import ZifyBool ZifyNat.

(** *** Proof *)
Definition entries (E : Z -> Prop) (t : tracking) : Prop := forall r d, dget (t_min t) r = Some d \/ dget (t_max t) r = Some d -> E d.
Definition dists (k : Z) (t : tracking) : Prop := forall i, 0 <= nth i (t_dist t) 0 <= k.
Definition dists_in (l : list Z) (k : Z) (t : tracking) : Prop := forall i, 0 <= nth i (t_dist t) 0 <= k + 1 /\ (In (Z.of_nat i) l -> nth i (t_dist t) 0 <= k).

Lemma nth_set_dist (l : list Z) i j v : nth j (list_set l i v) 0 = nth j l 0 \/ (i = j /\ nth j (list_set l i v) 0 = v) \/ nth j (list_set l i v) 0 = 0.
Proof. rewrite nth_list_set. destruct (Nat.eqb_spec i j); [|auto]. destruct (Nat.ltb i (length l)); auto. Qed.

Lemma visit_bounds (E : Z -> Prop) read k s l t : 0 <= k -> 0 <= s -> ~ In s l -> (forall d, 0 <= d <= k -> E d) -> entries E t -> dists_in (s :: l) k t ->
  entries E (visit_storage read t s) /\ dists_in l k (visit_storage read t s).
Proof. intros K S N B En D. pose proof (D (Z.to_nat s)) as Ds. destruct Ds as [Ds0 Ds1]. rewrite (Z2Nat.id s S) in Ds1. specialize (Ds1 (or_introl eq_refl)).
  assert (D' : dists_in l k t) by (intros i; destruct (D i) as [X Y]; split; [exact X|intros I; apply Y; right; exact I]).
  unfold visit_storage. destruct (nth (Z.to_nat s) (t_defined t) false); [|split; assumption].
  assert (Ed : E (nth (Z.to_nat s) (t_dist t) 0)) by (apply B; lia).
  destruct (zmem s read).
  - destruct (dget (t_mean t) s) as [[d n]|]; cbn [t_dist t_min t_max]; split.
    + intros r x H. cbn [t_min t_max] in H. destruct H as [H|H].
      * destruct (dget (t_min t) s) as [m|]; [|apply (En r x); auto]. destruct (m >? _); [|apply (En r x); auto]. rewrite dget_dset in H. destruct (r =? s); [injection H as <-; exact Ed|apply (En r x); auto].
      * destruct (dget (t_max t) s) as [m|]; [|apply (En r x); auto]. destruct (m <? _); [|apply (En r x); auto]. rewrite dget_dset in H. destruct (r =? s); [injection H as <-; exact Ed|apply (En r x); auto].
    + intros i. cbn [t_dist]. destruct (nth_set_dist (t_dist t) (Z.to_nat s) i 0) as [H|[[_ H]|H]]; rewrite H; [apply D'| |]; lia.
    + intros r x H. cbn [t_min t_max] in H. rewrite !dget_dset in H. destruct (r =? s); [destruct H as [H|H]; injection H as <-; exact Ed|apply (En r x); exact H].
    + intros i. cbn [t_dist]. destruct (nth_set_dist (t_dist t) (Z.to_nat s) i 0) as [H|[[_ H]|H]]; rewrite H; [apply D'| |]; lia.
  - split; [exact En|]. intros i. cbn [t_dist]. destruct (nth_set_dist (t_dist t) (Z.to_nat s) i (nth (Z.to_nat s) (t_dist t) 0 + 1)) as [H|[[I H]|H]]; rewrite H; [apply D'| |lia].
    split; [lia|]. intros J. rewrite <- I, Z2Nat.id in J by lia. destruct (N J). Qed.

Lemma visits_bounds (E : Z -> Prop) read k l : 0 <= k -> (forall d, 0 <= d <= k -> E d) -> forall t, NoDup l -> Forall (fun s => 0 <= s) l -> entries E t -> dists_in l k t ->
  entries E (fold_left (visit_storage read) l t) /\ dists (k + 1) (fold_left (visit_storage read) l t).
Proof. intros K B. induction l as [|s l IH]; intros t ND P En D; cbn [fold_left].
  - split; [exact En|]. intros i. apply (D i).
  - inversion ND; subst. inversion P; subst. destruct (visit_bounds E read k s l t) as [E1 D1]; try assumption. apply IH; assumption. Qed.

Lemma track_bounds (E : Z -> Prop) k t i : 0 <= k -> (forall d, 0 <= d <= k -> E d) -> entries E t -> dists k t -> entries E (track t i) /\ dists (k + 1) (track t i).
Proof. intros K B En D. unfold track. destruct (visits_bounds E (d_read i) k (zrange 0 STORAGE_COUNT) K B t) as [E1 D1].
  - apply zrange_nodup.
  - apply Forall_forall. intros s I. apply in_zrange in I. lia.
  - exact En.
  - intros j. pose proof (D j). split; [lia|intros; lia].
  - revert E1 D1. generalize (fold_left (visit_storage (d_read i)) (zrange 0 STORAGE_COUNT) t) as u. induction (d_written i) as [|s l IH]; intros u E1 D1; cbn [fold_left]; [auto|]. apply IH; [exact E1|].
    intros j. cbn [t_dist write_storage]. destruct (nth_set_dist (t_dist u) (Z.to_nat s) j 0) as [H|[[_ H]|H]]; rewrite H; [apply D1| |]; lia. Qed.

Lemma tracks_bounds (E : Z -> Prop) L : forall k t, 0 <= k -> (forall d, 0 <= d < k + Z.of_nat (length L) -> E d) -> entries E t -> dists k t -> entries E (fold_left track L t).
Proof. induction L as [|i L IH]; intros k t K B En D; cbn [fold_left]; [exact En|]. cbn [length] in B. destruct (track_bounds E k t i K) as [E1 D1]; [intros d Hd; apply B; lia|exact En|exact D|]. apply (IH (k + 1)); [lia| |exact E1|exact D1]. intros d Hd. apply B. lia. Qed.

Lemma collect_bounds (E : Z -> Prop) c insts : (forall d, 0 <= d < Z.of_nat (length (kept insts)) -> E d) ->
  (forall r d, dget (min_dist c) r = Some d \/ dget (max_dist c) r = Some d -> E d) ->
  forall r d, dget (min_dist (collect c insts)) r = Some d \/ dget (max_dist (collect c insts)) r = Some d -> E d.
Proof. intros B H. unfold collect. match goal with |- context [fold_left collect_step insts (?c0, ?e0, ?t0)] => destruct (collect_steps insts c0 e0 t0) as (c' & encs' & Eq & _); rewrite Eq; pose proof (tracks_bounds E (kept insts) 0 t0 ltac:(lia) B) as X end.
  cbn [min_dist max_dist]. apply X; [exact H|]. intros i. cbn [t_dist]. rewrite nth_repeat. lia. Qed.

(** A recorded distance is never negative, and smaller than the number of instructions that count in one of the programs collected. *)
Theorem C35_bounded : forall (lists : list (list dinst)) r d, let c := fold_left collect lists new_collector in
  dget (min_dist c) r = Some d \/ dget (max_dist c) r = Some d -> exists insts, In insts lists /\ 0 <= d < Z.of_nat (length (kept insts)).
Proof. intros lists r d c. subst c. revert r d.
  enough (G : forall c (E : Z -> Prop), (forall insts d, In insts lists -> 0 <= d < Z.of_nat (length (kept insts)) -> E d) -> (forall r d, dget (min_dist c) r = Some d \/ dget (max_dist c) r = Some d -> E d) ->
    forall r d, dget (min_dist (fold_left collect lists c)) r = Some d \/ dget (max_dist (fold_left collect lists c)) r = Some d -> E d).
  { intros r d H. apply (G new_collector (fun d => exists insts, In insts lists /\ 0 <= d < Z.of_nat (length (kept insts)))) with (r := r); [eauto|intros r0 d0 [X|X]; discriminate X|exact H]. }
  induction lists as [|insts lists IH]; intros c E B H; cbn [fold_left]; [exact H|]. apply IH; [intros i d I; apply B; right; exact I|]. apply collect_bounds; [intros d; apply B; left; reflexivity|exact H]. Qed.
Print Assumptions C35_bounded.
Example C35_bounded_example : let c := fold_left collect [demo] new_collector in (exists r, dget (max_dist c) r = Some 1) /\ Z.of_nat (length (kept demo)) = 5.
Proof. vm_compute. split; [exists 1; reflexivity|reflexivity]. Qed.

Lemma kept_le l : (length (kept l) <= length l)%nat.
Proof. unfold kept. induction l as [|x l IH]; cbn [filter length]; [lia|]. destruct (negb (d_ignore x)); cbn [length]; lia. Qed.
(** One recovery pass over candidates of a program that was collected, of any realistic length. *)
Theorem C113_any_program : forall orig p, let col := collect new_collector (map r_inst orig) in original_among orig p -> conditions_ok p -> storages_ok p -> writes_ok p -> Z.of_nat (length orig) < 2 ^ 63 ->
  exists p', rule_recover 1 col p = Ok p' /\ forall a l, dget p a = Some l -> (1 < length l)%nat -> exists l', dget p' a = Some l' /\
    Forall2 (fun c c' => same_number (dget (r_scores c') (key_of RCfg 0)) (Some (flow_score default_model p a c)) /\
      (r_ignore c = false -> forall r, same_number (dget (r_scores c') (key r 0)) (Some (added r c + mean_chance (values_of r) (counts_of r col) (CountExactProps.seen p) c)%Q)) /\
      same_number (dget (r_scores c') (key_of RDist 0)) (match distance_score col p a c with Some q => Some q | None => dget (r_scores c) (key_of RDist 0) end)) l l'.
Proof. intros orig p col O CO SO Wo L. apply C113_all_scores; try assumption. intros r d H. destruct (C35_bounded [map r_inst orig] r d H) as (insts & [<-|[]] & B).
  pose proof (kept_le (map r_inst orig)) as F. rewrite map_length in F. lia. Qed.
Print Assumptions C113_any_program.
Example C113_any_program_example : original_among r_orig r_prog2 /\ conditions_ok r_prog2 /\ storages_ok r_prog2 /\ writes_ok r_prog2 /\ Z.of_nat (length r_orig) < 2 ^ 63 /\ ~ first_defined r_prog2.
Proof. destruct C113_all_scores_example as (A & B & C & D & _ & E & _). repeat (split; [first [assumption|vm_compute; reflexivity]|]). exact E. Qed.
