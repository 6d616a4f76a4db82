(** C72 and C79: the text progress bar. *)
From Verif Require Export ProgressModel.
From Coq Require Import Lqa ZifyBool ZifyNat.

(** Number of 100% lines written. *)
Definition is_last (x : printed) : bool := match x with Last => true | _ => false end.
Definition finals (out : list printed) : nat := length (filter is_last out).
(** The percentages of the partial lines, in order. *)
Definition percents (out : list printed) : list Q := flat_map (fun x => match x with Partial p => [p] | Last => [] end) out.

Lemma near_spec total dist b : near_end total dist b = true <-> (inject_Z total <= inject_Z (iteration b) + dist)%Q.
Proof. unfold near_end. apply Qle_bool_iff. Qed.
Lemma near_spec_f total dist b : near_end total dist b = false <-> (inject_Z (iteration b) + dist < inject_Z total)%Q.
Proof. rewrite <- not_true_iff_false, near_spec. split; [apply Qnot_le_lt|apply Qlt_not_le]. Qed.
Lemma lt_spec a b : Qlt_bool a b = true <-> (a < b)%Q.
Proof. unfold Qlt_bool. rewrite negb_true_iff, <- not_true_iff_false, Qle_bool_iff. split; [apply Qnot_le_lt|apply Qlt_not_le]. Qed.
Lemma lt_spec_f a b : Qlt_bool a b = false <-> (b <= a)%Q.
Proof. rewrite <- not_true_iff_false, lt_spec. split; [apply Qnot_lt_le|apply Qle_not_lt]. Qed.

Definition pct (k total : Z) : Q := (100 * (inject_Z k / inject_Z total))%Q.
Lemma pct_mono k l total : 0 < total -> k <= l -> (pct k total <= pct l total)%Q.
Proof.
  intros T L. unfold pct. assert (0 < inject_Z total)%Q by (change 0%Q with (inject_Z 0); rewrite <- Zlt_Qlt; auto).
  apply Qmult_le_l; [reflexivity|]. unfold Qdiv. apply Qmult_le_compat_r; [rewrite <- Zle_Qle; auto|]. apply Qlt_le_weak, Qinv_lt_0_compat; auto.
Qed.
Lemma pct_nonneg k total : 0 < total -> 0 <= k -> (0 <= pct k total)%Q.
Proof. intros T L. assert (pct 0 total == 0)%Q as <- by (unfold pct, Qdiv; change (inject_Z 0) with 0%Q; ring). now apply pct_mono. Qed.
Lemma pct_lt_100 k total : 0 < total -> k < total -> (pct k total < 100)%Q.
Proof.
  intros T L. unfold pct. assert (H : (0 < inject_Z total)%Q) by (change 0%Q with (inject_Z 0); rewrite <- Zlt_Qlt; auto).
  assert (inject_Z k / inject_Z total < 1)%Q. { apply Qlt_shift_div_r; [auto|]. rewrite Qmult_1_l. rewrite <- Zlt_Qlt. auto. }
  lra.
Qed.

(** The percentages rise by at least the distance. *)
Definition spaced (dist : Q) (l : list Q) : Prop := forall l1 p q l2, l = l1 ++ p :: q :: l2 -> (p + dist <= q)%Q.
(** State after [n] calls: still counting, or finished. *)
Definition counting (start total : Z) (dist : Q) (n : nat) (b : bar) : Prop :=
  finals (output b) = O /\ iteration b = start + Z.of_nat n /\
  match n with
  | O => prev_percent b = None /\ output b = []
  | S m => (inject_Z (start + Z.of_nat m) + dist < inject_Z total)%Q /\ ((dist == 0)%Q -> iteration b < total) /\
           exists k l, prev_percent b = Some (pct k total) /\ start <= k < iteration b /\ percents (output b) = l ++ [pct k total]
  end.
Definition finished (total : Z) (b : bar) : Prop := finals (output b) = 1%nat /\ iteration b = total /\ exists q, prev_percent b = Some q.
Definition lines_ok (dist : Q) (b : bar) : Prop := spaced dist (percents (output b)) /\ Forall (fun p => 0 <= p /\ p < 100)%Q (percents (output b)).

Lemma finals_snoc out x : finals (out ++ [x]) = (finals out + if is_last x then 1 else 0)%nat.
Proof. unfold finals. rewrite filter_app, app_length. cbn [filter]. destruct (is_last x); reflexivity. Qed.
Lemma percents_last out : percents (out ++ [Last]) = percents out.
Proof. unfold percents. rewrite flat_map_app. cbn. apply app_nil_r. Qed.
Lemma percents_partial out p : percents (out ++ [Partial p]) = percents out ++ [p].
Proof. unfold percents. rewrite flat_map_app. reflexivity. Qed.
Lemma spaced_snoc dist l p q : spaced dist (l ++ [p]) -> (p + dist <= q)%Q -> spaced dist ((l ++ [p]) ++ [q]).
Proof.
  intros S L l1 a b l2 E. destruct l2 as [|x l2 _] using rev_ind.
  - rewrite <- app_assoc in E. cbn in E. change (l1 ++ [a; b]) with (l1 ++ [a] ++ [b]) in E. rewrite app_assoc in E.
    change (l ++ [p; q]) with (l ++ [p] ++ [q]) in E. rewrite app_assoc in E. apply app_inj_tail in E as [E ->]. apply app_inj_tail in E as [_ ->]. auto.
  - change (a :: b :: l2 ++ [x]) with ((a :: b :: l2) ++ [x]) in E. rewrite app_assoc in E. apply app_inj_tail in E as [E _]. eapply S; eauto.
Qed.
Lemma spaced_one dist p : spaced dist [p].
Proof. intros l1 a b l2 E. destruct l1 as [|? [|]]; discriminate. Qed.

Definition whole (dist : Q) : Prop := (dist == 0 \/ 1 <= dist)%Q.
Lemma progress_step start total dist n b : 0 <= start -> whole dist -> counting start total dist n b -> lines_ok dist b ->
  exists b', progress total dist b = Ok b' /\ lines_ok dist b' /\
    ((counting start total dist (S n) b' /\ (inject_Z (iteration b) + dist < inject_Z total)%Q) \/ finished total b').
Proof.
  intros S0 W (F & I & C) (L1 & L2). unfold progress.
  assert (NE : match prev_percent b with Some _ => iteration b =? total | None => false end = false).
  { destruct n as [|m]; [now destruct C as [-> _]|]. destruct C as (C1 & C2 & _). destruct (prev_percent b); [|reflexivity]. apply Z.eqb_neq. intros E.
    destruct W as [W|W]; [specialize (C2 W); lia|]. rewrite E in I. replace total with (start + Z.of_nat m + 1) in C1 by lia. rewrite (inject_Z_plus (start + Z.of_nat m) 1) in C1. change (inject_Z 1) with 1%Q in C1. lra. }
  rewrite NE. destruct (near_end total dist b) eqn:N.
  - exists (go_to_end total b). split; [reflexivity|]. unfold go_to_end, lines_ok. cbn [output iteration prev_percent]. rewrite percents_last. split; [auto|]. right.
    unfold finished. cbn [output iteration prev_percent]. rewrite finals_snoc, F. repeat split; eauto.
  - apply near_spec_f in N.
    assert (D0 : (0 <= dist)%Q) by (destruct W as [W|W]; lra).
    assert (T : iteration b < total). { rewrite Zlt_Qlt. lra. }
    assert (T0 : 0 < total) by lia. rewrite (proj2 (Z.eqb_neq total 0)) by lia. cbn [iteration prev_percent output]. fold (pct (iteration b) total).
    set (p := pct (iteration b) total).
    assert (P : (0 <= p /\ p < 100)%Q) by (split; [apply pct_nonneg; lia|apply pct_lt_100; auto]).
    destruct (match prev_percent b with Some q => Qlt_bool (p - q) dist | None => false end) eqn:Sk.
    + exists (Bar (iteration b + 1) (prev_percent b) (output b)). split; [reflexivity|]. split; [now split|]. left. split; [|exact N].
      destruct (prev_percent b) as [q|] eqn:Q1; [|discriminate]. apply lt_spec in Sk. unfold counting. cbn [iteration prev_percent output].
      split; [auto|]. split; [lia|]. destruct n as [|m]; [destruct C; discriminate|]. destruct C as (C1 & C2 & k & l & E1 & E2 & E3).
      split; [rewrite <- I; auto|]. split.
      * intros D. exfalso. injection E1 as ->. assert (pct k total <= p)%Q by (apply pct_mono; lia). lra.
      * exists k, l. split; [auto|]. split; [lia|auto].
    + set (b2 := Bar (iteration b + 1) (prev_percent b) (output b ++ [Partial p])).
      assert (F2 : finals (output b2) = O) by (cbn [b2 output]; rewrite finals_snoc, F; reflexivity).
      assert (PP : percents (output b2) = percents (output b) ++ [p]) by apply percents_partial.
      assert (LO : lines_ok dist b2).
      { unfold lines_ok. rewrite PP. split; [|apply Forall_app; split; auto].
        destruct n as [|m]; [destruct C as [_ ->]; apply spaced_one|]. destruct C as (_ & _ & k & l & E1 & E2 & E3). rewrite E1 in Sk. apply lt_spec_f in Sk.
        rewrite E3 in *. apply spaced_snoc; [auto|lra]. }
      destruct (near_end total dist b2) eqn:N2.
      * eexists. split; [reflexivity|]. unfold lines_ok, finished, go_to_end. cbn [iteration prev_percent output].
        rewrite percents_last. split; [exact LO|]. right. rewrite finals_snoc, F2. repeat split; eauto.
      * exists (Bar (iteration b2) (Some p) (output b2)). split; [reflexivity|]. split; [exact LO|]. left. split; [|exact N].
        apply near_spec_f in N2. unfold counting. cbn [iteration prev_percent output]. split; [auto|]. cbn [b2 iteration] in *. split; [lia|].
        split; [rewrite <- I; auto|]. split; [intros D; rewrite Zlt_Qlt; lra|]. exists (iteration b), (percents (output b)). repeat split; auto; lia.
Qed.
Lemma finished_step total dist b : finished total b -> progress total dist b = Ok b.
Proof. intros (_ & I & q & E). unfold progress. rewrite E, I, Z.eqb_refl. reflexivity. Qed.
Lemma calls_snoc total dist n : forall b, calls total dist (S n) b = (let* b' := calls total dist n b in progress total dist b').
Proof.
  induction n as [|n IH]; intros b; [cbn [calls bind]; destruct (progress total dist b); reflexivity|].
  change (calls total dist (S (S n)) b) with (let* b' := progress total dist b in calls total dist (S n) b').
  change (calls total dist (S n) b) with (let* b' := progress total dist b in calls total dist n b').
  destruct (progress total dist b) as [b'|e]; cbn [bind]; [apply IH|reflexivity].
Qed.
Lemma calls_inv start total dist : 0 <= start -> whole dist -> forall n, exists b, calls total dist n (bar_new start) = Ok b /\ lines_ok dist b /\
  (counting start total dist n b \/ finished total b).
Proof.
  intros S0 W. induction n as [|n (b & E & L & H)].
  - exists (bar_new start). split; [reflexivity|]. split; [split; [intros [|? ?] ? ? ? X; discriminate|constructor]|]. left. unfold counting. cbn. repeat split. lia.
  - rewrite calls_snoc, E. cbn [bind]. destruct H as [H|H].
    + destruct (progress_step _ _ _ _ _ S0 W H L) as (b' & E' & L' & [[H' _]|H']); exists b'; auto.
    + exists b. split; [now apply finished_step|]. auto.
Qed.

(** C72: for a start of at least 0 and a print distance of 0 or at least 1 (every
    whole one), any number of calls succeeds, leaves the iteration at most at the
    larger of total and start, and writes at most one 100% line; after more than
    total - start - distance calls (and at least one) exactly one has been written. *)
Theorem C72_finishes_once : forall start total dist n, 0 <= start -> (dist == 0 \/ 1 <= dist)%Q ->
  exists b, calls total dist n (bar_new start) = Ok b /\
    iteration b <= Z.max total start /\ (finals (output b) <= 1)%nat /\
    ((1 <= n)%nat -> (inject_Z total - inject_Z start - dist + 1 <= inject_Z (Z.of_nat n))%Q -> finals (output b) = 1%nat /\ iteration b = total) /\
    (finals (output b) = 1%nat -> forall m, calls total dist (n + m) (bar_new start) = Ok b).
Proof.
  intros start total dist n S0 W. destruct (calls_inv start total dist S0 W n) as (b & E & _ & H). exists b. split; [exact E|].
  assert (D0 : (0 <= dist)%Q) by (destruct W as [W|W]; lra).
  destruct H as [(F & I & C)|(F & I & q & Q1)].
  - split.
    { destruct n as [|m]; [lia|]. destruct C as (C1 & _). assert (start + Z.of_nat m < total) by (rewrite Zlt_Qlt; lra). lia. }
    split; [lia|]. split; [|rewrite F; discriminate]. intros N1 N2. exfalso. destruct n as [|m]; [lia|]. destruct C as (C1 & _).
    rewrite inject_Z_plus in C1. replace (Z.of_nat (S m)) with (Z.of_nat m + 1) in N2 by lia. rewrite inject_Z_plus in N2. change (inject_Z 1) with 1%Q in N2. lra.
  - split; [lia|]. split; [lia|]. split; [auto|]. intros _ m. induction m as [|m IH]; [now rewrite Nat.add_0_r|].
    rewrite Nat.add_succ_r, calls_snoc, IH. cbn [bind]. apply finished_step. split; eauto.
Qed.
Print Assumptions C72_finishes_once.
Example C72_example : exists b, calls 12 3 11 (bar_new 0) = Ok b /\ iteration b = 12 /\ finals (output b) = 1%nat /\ (length (output b) > 2)%nat /\
  match calls 12 3 5 (bar_new 0) with Ok b' => iteration b' = 5 /\ finals (output b') = O | Err _ => False end.
Proof. eexists. split; [vm_compute; reflexivity|]. split; [reflexivity|]. split; [reflexivity|]. split; [cbn [output length]; lia|]. vm_compute. split; reflexivity. Qed.

(** The condition on the distance is needed: with distance 1/2 and total 202 the
    100% line is never written. *)
Theorem C72_fraction_never_finishes : forall n, exists b, calls 202 (1 # 2) n (bar_new 0) = Ok b /\ finals (output b) = O.
Proof.
  assert (H : match calls 202 (1 # 2) 202 (bar_new 0) with Ok b => finals (output b) = O /\ iteration b = 202 /\ prev_percent b <> None | Err _ => False end)
    by (vm_compute; repeat split; discriminate).
  assert (P : forall n m, (n <= m)%nat -> forall d, calls 202 (1 # 2) m (bar_new 0) = Ok d -> exists b, calls 202 (1 # 2) n (bar_new 0) = Ok b /\ (finals (output b) <= finals (output d))%nat).
  { clear H. intros n m L. induction L as [|m L IH]; intros d E; [exists d; split; [exact E|apply Nat.le_refl]|].
    rewrite calls_snoc in E. destruct (calls 202 (1 # 2) m (bar_new 0)) as [c|] eqn:Ec; [|discriminate]. cbn [bind] in E.
    destruct (IH c eq_refl) as (b & Eb & Lb). exists b. split; [exact Eb|].
    assert (finals (output c) <= finals (output d))%nat; [|lia].
    unfold progress in E. repeat match type of E with context [if ?x then _ else _] => destruct x end; try discriminate; injection E as <-; unfold go_to_end; cbn [output]; rewrite ?finals_snoc; lia. }
  intros n. destruct (calls 202 (1 # 2) 202 (bar_new 0)) as [d|] eqn:E; [|destruct H]. destruct H as (F & I & Q1).
  destruct (Nat.le_gt_cases n 202) as [L|L].
  - destruct (P n 202%nat L d E) as (b & Eb & Lb). exists b. split; [auto|lia].
  - exists d. split; [|auto]. replace n with (202 + (n - 202))%nat by lia. generalize (n - 202)%nat. intros m. induction m as [|m IH]; [now rewrite Nat.add_0_r|].
    rewrite Nat.add_succ_r, calls_snoc, IH. cbn [bind]. unfold progress. destruct (prev_percent d); [|congruence]. rewrite I, Z.eqb_refl. reflexivity.
Qed.
Print Assumptions C72_fraction_never_finishes.

(** C79: the partial lines show percentages in [0, 100) that rise by at least the
    print distance, so that k of them need a distance of at most 100 / (k - 1). *)
Theorem C79_bounded_output : forall start total dist n b, 0 <= start -> (dist == 0 \/ 1 <= dist)%Q ->
  calls total dist n (bar_new start) = Ok b ->
  (forall l1 p q l2, percents (output b) = l1 ++ p :: q :: l2 -> (p + dist <= q)%Q) /\
  Forall (fun p => 0 <= p /\ p < 100)%Q (percents (output b)) /\
  (percents (output b) <> [] -> (inject_Z (Z.of_nat (length (percents (output b))) - 1) * dist < 100)%Q).
Proof.
  intros start total dist n b S0 W E. destruct (calls_inv start total dist S0 W n) as (b' & E' & (L1 & L2) & _). assert (b' = b) as -> by congruence.
  split; [exact L1|]. split; [exact L2|]. clear -L1 L2.
  assert (G : forall l, spaced dist l -> Forall (fun p => 0 <= p /\ p < 100)%Q l -> forall q l', l = l' ++ [q] -> (inject_Z (Z.of_nat (length l) - 1) * dist <= q)%Q).
  { induction l as [|x l IH] using rev_ind; intros Sp Fo q l' Eq; [destruct l'; discriminate|]. apply app_inj_tail in Eq as [-> ->].
    apply Forall_app in Fo as [Fo Fx]. destruct l' as [|y l'' _] using rev_ind.
    - change (inject_Z (Z.of_nat (length ([] ++ [q])) - 1)) with 0%Q. inversion Fx as [|? ? [A B] _]; subst. lra.
    - specialize (IH ltac:(intros a1 p1 q1 a2 X; apply (Sp a1 p1 q1 (a2 ++ [q])); rewrite X, <- app_assoc; reflexivity) Fo y l'' eq_refl).
      assert (Y : (y + dist <= q)%Q) by (apply (Sp l'' y q []); rewrite <- app_assoc; reflexivity).
      rewrite app_length. cbn [length]. rewrite Nat2Z.inj_add. replace (Z.of_nat (length (l'' ++ [y])) + Z.of_nat 1 - 1) with ((Z.of_nat (length (l'' ++ [y])) - 1) + 1) by lia.
      rewrite inject_Z_plus. change (inject_Z 1) with 1%Q. lra. }
  intros Ne. destruct (percents (output b)) as [|x l _] eqn:Ep using rev_ind; [congruence|].
  specialize (G _ L1 L2 x l eq_refl). apply Forall_app in L2 as [_ L2]. inversion L2 as [|? ? [A B] _]; subst. lra.
Qed.
Print Assumptions C79_bounded_output.
Example C79_example : exists b, calls 50 10 60 (bar_new 0) = Ok b /\ length (percents (output b)) = 8%nat /\ percents (output b) <> [].
Proof. eexists. split; [vm_compute; reflexivity|]. split; [vm_compute; reflexivity|discriminate]. Qed.
