(** C91, continued: exactly when the distance rule gives full credit. *)
From Verif Require Import ListLemmas FlipModel FlipProofs InstModel MetaModel MetaSpec MetaProofs MetaProps BlaumProofs RecModel RecSpec RecProofs RecProofs3 GraphProofs RulesModel RulesSpec RulesProofs RulesProofs2 RulesProofs3 RulesProofs4 RulesProofs5 RulesProps DistanceProps.
From Coq Require Import ZifyBool ZifyNat Lqa Qminmax.

(** *** Specification *)
(** At address [b] one defined candidate is left, and it writes [r] and nothing else. *)
Definition certain (p : rprogram) (b r : Z) : Prop :=
  exists x, defined_at p b = [x] /\ d_written (r_inst x) <> [] /\ forall s, In s (d_written (r_inst x)) -> s = r.
(** The numbers are small enough for the rule's 1e-14 not to matter. *)
Definition sizes_ok (p : rprogram) (reads : list Z) : Prop :=
  Z.of_nat (length reads) < 100000000000000 /\
  forall b x, In x (defined_at p b) -> Z.of_nat (length reads) * (Z.of_nat (length (d_written (r_inst x))) * all_at p b) < 100000000000000.

(** *** Proof *)
Definition tiny := (1 # 100000000000000)%Q.
Definition gap (n : Z) (q : Q) : Prop := (q == 1)%Q \/ (q + inject_Z n * tiny < 1)%Q.

Lemma filter_short {A} (f : A -> bool) l : (length (filter f l) <= length l)%nat.
Proof. induction l as [|x l IH]; cbn [filter length]; [lia|]. destruct (f x); cbn [length]; lia. Qed.
Lemma occurrences_le r l : 0 <= occurrences r l <= Z.of_nat (length l).
Proof. unfold occurrences. pose proof (filter_short (Z.eqb r) l). lia. Qed.
Lemma occurrences_full r l : occurrences r l = Z.of_nat (length l) -> forall s, In s l -> s = r.
Proof. unfold occurrences. induction l as [|x l IH]; intros E s I; [destruct I|]. cbn [filter] in E. pose proof (filter_short (Z.eqb r) l).
  destruct (Z.eqb_spec r x) as [->|Ne]; cbn [length] in E; [|lia]. destruct I as [<-|I]; [reflexivity|]. apply IH; [lia|exact I]. Qed.
Lemma occurrences_only r l : (forall s, In s l -> s = r) -> occurrences r l = Z.of_nat (length l).
Proof. unfold occurrences. induction l as [|x l IH]; intros H; [reflexivity|]. cbn [filter]. rewrite (H x (or_introl eq_refl)), Z.eqb_refl. cbn [length].
  specialize (IH (fun s I => H s (or_intror I))). lia. Qed.

Lemma share_gap n here r written : 1 <= here -> written <> [] -> 0 <= n -> n * (Z.of_nat (length written) * here) < 100000000000000 ->
  gap n (share here r written) /\ ((share here r written == 1)%Q <-> here = 1 /\ forall s, In s written -> s = r).
Proof. intros Hh Hw Hn Hs. assert (L : 1 <= Z.of_nat (length written)) by (destruct written; [congruence|cbn [length]; lia]).
  pose proof (occurrences_le r written) as O. unfold share. set (o := occurrences r written) in *. set (k := Z.of_nat (length written)) in *.
  assert (Tp : 0 < k * here) by nia. set (t := k * here) in *.
  assert (Tq : (0 < inject_Z t)%Q) by (change 0%Q with (inject_Z 0); rewrite <- Zlt_Qlt; exact Tp).
  assert (Ot : o <= t) by (unfold t; nia).
  assert (One : (inject_Z o / inject_Z t == 1)%Q <-> o = t).
  { split; intros E.
    - assert (X : (inject_Z o == inject_Z t)%Q) by (setoid_replace (inject_Z o) with ((inject_Z o / inject_Z t) * inject_Z t)%Q by (field; lra); rewrite E; ring).
      apply (proj1 (inject_Z_injective o t)). exact X.
    - rewrite E. field. lra. }
  split.
  - destruct (Z.eq_dec o t) as [E|E]; [left; apply One, E|right].
    apply Qmult_lt_r with (z := inject_Z t); [exact Tq|]. setoid_replace ((inject_Z o / inject_Z t + inject_Z n * tiny) * inject_Z t)%Q with (inject_Z o + inject_Z (n * t) * tiny)%Q by (rewrite inject_Z_mult; field; lra).
    assert (X : (inject_Z (n * t) * tiny < 1)%Q).
    { unfold tiny. setoid_replace (inject_Z (n * t) * (1 # 100000000000000))%Q with (n * t # 100000000000000) by (unfold Qeq, inject_Z; cbn [Qnum Qden Qmult]; lia).
      unfold Qlt. cbn [Qnum Qden]. lia. }
    assert (Y : (inject_Z o <= inject_Z t - 1)%Q) by (change 1%Q with (inject_Z 1); unfold Qminus; rewrite <- inject_Z_opp, <- inject_Z_plus, <- Zle_Qle; lia).
    lra.
  - rewrite One. split.
    + intros E. assert (here = 1) by (unfold t in E; nia). split; [assumption|]. apply occurrences_full. unfold t in E. fold o. nia.
    + intros [-> A]. unfold o, t, k. rewrite (occurrences_only r written A). ring. Qed.

Lemma largest_gap n l : 0 <= n -> n < 100000000000000 -> (forall q, In q l -> gap n q) ->
  gap n (largest l) /\ ((largest l == 1)%Q <-> exists q, In q l /\ (q == 1)%Q).
Proof. intros Hp Hn H. assert (Z0 : gap n 0%Q).
  { right. unfold tiny. setoid_replace (0 + inject_Z n * (1 # 100000000000000))%Q with (n # 100000000000000) by (unfold Qeq, inject_Z; cbn [Qnum Qden Qmult Qplus]; lia).
    unfold Qlt. cbn [Qnum Qden]. lia. }
  induction l as [|x l IH]; cbn [largest fold_right].
  - split; [exact Z0|]. split; [intros E; exfalso; lra|intros (q & [] & _)].
  - fold (largest l). destruct IH as [G E]; [intros q I; apply H; right; exact I|]. specialize (H x (or_introl eq_refl)).
    destruct (Q.max_spec x (largest l)) as [[M Em]|[M Em]].
    + split; [destruct G as [G|G]; [left|right]; rewrite Em; exact G|]. rewrite Em, E. split.
      * intros (q & I & Q1). exists q. split; [right; exact I|exact Q1].
      * intros (q & [<-|I] & Q1); [|exists q; auto]. apply E. destruct G as [G|G]; [exact G|]. assert (0 <= inject_Z n * tiny)%Q by (apply Qmult_le_0_compat; [change 0%Q with (inject_Z 0); rewrite <- Zle_Qle; exact Hp|unfold tiny; lra]). lra.
    + split; [destruct H as [H|H]; [left|right]; rewrite Em; exact H|]. rewrite Em. split.
      * intros X. exists x. split; [left; reflexivity|exact X].
      * intros (q & [<-|I] & Q1); [exact Q1|]. assert (L1 : (largest l == 1)%Q) by (apply E; exists q; auto). destruct H as [H|H]; [exact H|].
        assert (0 <= inject_Z n * tiny)%Q by (apply Qmult_le_0_compat; [change 0%Q with (inject_Z 0); rewrite <- Zle_Qle; exact Hp|unfold tiny; lra]). lra. Qed.

Lemma sum_full (M : Z -> Q) k reads : 0 < k -> (forall r, In r reads -> gap k (M r)) ->
  let s := fold_right (fun r s => tiny + M r + s)%Q 0%Q reads in
  let n := inject_Z (Z.of_nat (length reads)) in
  (s <= n * (1 + tiny))%Q /\ (((forall r, In r reads -> M r == 1) /\ s == n * (1 + tiny))%Q \/ (s < n * (1 + tiny) - inject_Z k * tiny)%Q).
Proof. intros Kp H. cbv zeta. assert (Kt : (0 < inject_Z k * tiny)%Q) by (apply Qmult_lt_0_compat; [change 0%Q with (inject_Z 0); rewrite <- Zlt_Qlt; exact Kp|unfold tiny; lra]).
  induction reads as [|r l IH]; cbn [fold_right length].
  - change (inject_Z (Z.of_nat 0)) with 0%Q. split; [lra|]. left. split; [intros r []|lra].
  - destruct IH as [A B]; [intros x I; apply H; right; exact I|]. specialize (H r (or_introl eq_refl)). rewrite Nat2Z.inj_succ. unfold Z.succ. rewrite inject_Z_plus. change (inject_Z 1) with 1%Q.
    set (m := inject_Z (Z.of_nat (length l))) in *. set (s := fold_right (fun r s => tiny + M r + s)%Q 0%Q l) in *.
    assert (Ex : ((m + 1) * (1 + tiny) == m * (1 + tiny) + 1 + tiny)%Q) by ring. rewrite Ex. set (mt := (m * (1 + tiny))%Q) in *. destruct H as [H|H].
    + split; [lra|]. destruct B as [[B1 B2]|B]; [left; split; [intros x [<-|I]; auto|lra]|right; lra].
    + split; [lra|]. right. lra. Qed.

Lemma average_full (M : Z -> Q) reads : reads <> [] -> (forall r, In r reads -> gap (Z.of_nat (length reads)) (M r)) ->
  (Qmin 1 (average (fun r => (1 # 100000000000000) + M r)%Q reads) == 1)%Q <-> forall r, In r reads -> (M r == 1)%Q.
Proof. intros N H. assert (Kp : 0 < Z.of_nat (length reads)) by (destruct reads; [congruence|cbn [length]; lia]).
  destruct (sum_full M (Z.of_nat (length reads)) reads Kp H) as [A B]. unfold average. fold tiny. set (s := fold_right (fun r s => tiny + M r + s)%Q 0%Q reads) in *. set (n := inject_Z (Z.of_nat (length reads))) in *.
  assert (Np : (0 < n)%Q) by (unfold n; change 0%Q with (inject_Z 0); rewrite <- Zlt_Qlt; exact Kp).
  assert (Me : (s == s / n * n)%Q) by (field; lra). split.
  - intros E. destruct B as [[B _]|B]; [exact B|]. exfalso. assert (L : (1 <= s / n)%Q) by (rewrite <- E; apply Q.le_min_r).
    assert (n <= s)%Q by (rewrite Me; setoid_replace n with (1 * n)%Q at 1 by ring; apply Qmult_le_compat_r; [exact L|lra]). lra.
  - intros F. destruct B as [[_ B]|B].
    + apply Q.min_l. rewrite B. setoid_replace (n * (1 + tiny) / n)%Q with (1 + tiny)%Q by (field; lra). unfold tiny; lra.
    + exfalso. assert (G : forall l, (forall r, In r l -> (M r == 1)%Q) -> (fold_right (fun r s => tiny + M r + s)%Q 0%Q l == inject_Z (Z.of_nat (length l)) * (1 + tiny))%Q).
      { clear. induction l as [|r l IH]; intros F; cbn [fold_right length]; [change (inject_Z (Z.of_nat 0)) with 0%Q; ring|]. rewrite IH by (intros x I; apply F; right; exact I). rewrite (F r (or_introl eq_refl)), Nat2Z.inj_succ. unfold Z.succ. rewrite inject_Z_plus. change (inject_Z 1) with 1%Q. ring. }
      specialize (G reads F). fold s n in G. assert (0 < n * tiny)%Q by (apply Qmult_lt_0_compat; [exact Np|unfold tiny; lra]). lra. Qed.

Lemma ends_in_nonempty r w : ends_in r w = true -> w <> [].
Proof. intros E ->. discriminate. Qed.
Lemma only_ends r w : w <> [] -> (forall s, In s w -> s = r) -> ends_in r w = true.
Proof. intros N A. rewrite ends_in_last by exact N. destruct (exists_last N) as (l & x & ->). rewrite last_last. rewrite (A x); [apply Z.eqb_refl|]. apply in_or_app. right. left. reflexivity. Qed.
Lemma all_at_length p b : all_at p b = Z.of_nat (length (defined_at p b)).
Proof. reflexivity. Qed.

Lemma credit_full p w reads r : sizes_ok p reads -> In r reads ->
  gap (Z.of_nat (length reads)) (largest (flat_map (shares_at p r) w)) /\ ((largest (flat_map (shares_at p r) w) == 1)%Q <-> exists b, In b w /\ certain p b r).
Proof. intros [S1 S2] I. set (n := Z.of_nat (length reads)) in *.
  assert (Sh : forall q, In q (flat_map (shares_at p r) w) <-> exists b x, In b w /\ In x (defined_at p b) /\ ends_in r (d_written (r_inst x)) = true /\ q = share (all_at p b) r (d_written (r_inst x))).
  { intros q. rewrite in_flat_map. unfold shares_at. split.
    - intros (b & Ib & Iq). apply in_map_iff in Iq. destruct Iq as (x & <- & Ix). apply filter_In in Ix. exists b, x. tauto.
    - intros (b & x & Ib & Ix & Ex & ->). exists b. split; [exact Ib|]. apply in_map_iff. exists x. split; [reflexivity|]. apply filter_In. tauto. }
  assert (One : forall b x, In x (defined_at p b) -> 1 <= all_at p b) by (intros b x Ix; rewrite all_at_length; destruct (defined_at p b); [destruct Ix|cbn [length]; lia]).
  assert (Sg : forall b x, In x (defined_at p b) -> ends_in r (d_written (r_inst x)) = true -> gap n (share (all_at p b) r (d_written (r_inst x))) /\ ((share (all_at p b) r (d_written (r_inst x)) == 1)%Q <-> all_at p b = 1 /\ forall s, In s (d_written (r_inst x)) -> s = r)).
  { intros b x Ix Ex. apply share_gap; [exact (One b x Ix)|exact (ends_in_nonempty r _ Ex)|unfold n; lia|exact (S2 b x Ix)]. }
  destruct (largest_gap n (flat_map (shares_at p r) w)) as [G E]; [unfold n; lia|exact S1| |].
  { intros q Iq. apply Sh in Iq. destruct Iq as (b & x & _ & Ix & Ex & ->). exact (proj1 (Sg b x Ix Ex)). }
  split; [exact G|]. rewrite E. split.
  - intros (q & Iq & Q1). apply Sh in Iq. destruct Iq as (b & x & Ib & Ix & Ex & ->). apply (proj2 (Sg b x Ix Ex)) in Q1. destruct Q1 as [A O]. exists b. split; [exact Ib|].
    rewrite all_at_length in A. exists x. destruct (defined_at p b) as [|y [|z m]]; cbn [length] in A; [lia| |lia]. destruct Ix as [->|[]]. split; [reflexivity|]. split; [exact (ends_in_nonempty r _ Ex)|exact O].
  - intros (b & Ib & x & D & Nw & O). assert (Ix : In x (defined_at p b)) by (rewrite D; left; reflexivity). pose proof (only_ends r _ Nw O) as Ex. exists (share (all_at p b) r (d_written (r_inst x))). split; [apply Sh; exists b, x; auto|].
    apply (proj2 (Sg b x Ix Ex)). split; [rewrite all_at_length, D; reflexivity|exact O]. Qed.

Lemma Forall2_mon {A B} (R S : A -> B -> Prop) l l' : (forall x y, R x y -> S x y) -> Forall2 R l l' -> Forall2 S l l'.
Proof. intros H F. induction F; constructor; auto. Qed.

Theorem C91_full_exactly : forall pass col p a l, storages_ok p -> writes_ok p -> distances_ok col -> dget p a = Some l ->
  exists l' t, read_distance pass col p a = Ok (dset p a l', t) /\
    Forall2 (fun c c' => let reads := d_read (r_inst c) in
      r_ignore c = false -> d_used (r_inst c) <> [] -> sizes_ok p reads -> (exists b, In b (window col a reads) /\ dmem p b = true) ->
      exists q, dget (r_scores c') (key_of RDist pass) = Some q /\ (q <= 1)%Q /\
        ((q == 1)%Q <-> forall r, In r reads -> exists b, In b (window col a reads) /\ certain p b r)) l l'.
Proof. intros pass col p a l SO Wo D G. destruct (C90_exactly pass col p a l SO Wo D G) as (l' & t & E & F). exists l', t. split; [exact E|]. clear E.
  apply (Forall2_mon _ _ l l') with (2 := F). intros c c' H. cbv zeta. intros Ig U S (b & Ib & Mb). unfold distance_score in H. rewrite Ig in H.
  replace (Nat.eqb (length (d_used (r_inst c))) 0) with false in H by (destruct (d_used (r_inst c)); [congruence|reflexivity]).
  replace (existsb (dmem p) (window col a (d_read (r_inst c)))) with true in H by (symmetry; apply existsb_exists; exists b; auto).
  destruct H as (_ & _ & _ & (q & Eq & Q1) & _). exists q. split; [exact Eq|]. split; [rewrite Q1; apply Q.le_min_l|]. rewrite Q1. unfold credit_for.
  rewrite (average_full (fun r => largest (flat_map (shares_at p r) (window col a (d_read (r_inst c)))))).
  - split; intros X r I; [apply (credit_full p _ _ r S I), X, I|apply (credit_full p _ _ r S I), X, I].
  - intros N. rewrite N in Ib. destruct Ib.
  - intros r I. exact (proj1 (credit_full p _ _ r S I)). Qed.
Print Assumptions C91_full_exactly.

(** r1 was certainly written before; r0 only by one of two candidates, so the instruction
    reading both falls short of 1 and the one reading r1 alone does not. *)
Definition f_prog : rprogram := [(0, [ins 0 14 5 [1] [1] []; dropped r_far]); (4, [ins 4 14 5 [2; 0] [2; 0] []; ins 4 14 5 [3] [3] []]); (8, [ins 8 14 6 [4; 0; 1] [4] [0; 1]; ins 8 14 6 [4; 1] [4] [1]])].
Example C91_full_exactly_example :
  storages_ok f_prog /\ writes_ok f_prog /\ distances_ok d_col /\ sizes_ok f_prog [1] /\ sizes_ok f_prog [0; 1] /\
  window d_col 8 [1] = [0] /\ window d_col 8 [0; 1] = [4; 0] /\ certain f_prog 0 1 /\ ~ certain f_prog 4 0 /\
  match read_distance 0 d_col f_prog 8 with Ok (p', _) => rmap (map (fun c => option_map (fun q => Qeq_bool q 1) (dget (r_scores c) (key_of RDist 0)))) (dget_r p' 8) | Err e => Err e end = Ok [Some false; Some true].
Proof. split; [|split; [|split; [|split; [|split]]]].
  - intros a l c r [E|[E|[E|[]]]]; injection E as <- <-; intros I _ J; cbn [In] in I; repeat (destruct I as [<-|I]; [vm_compute in J; intuition lia|]); destruct I.
  - intros a l c r [E|[E|[E|[]]]]; injection E as <- <-; intros I J; cbn [In] in I; repeat (destruct I as [<-|I]; [vm_compute in J; intuition lia|]); destruct I.
  - intros r d H. unfold d_col in H. cbn [min_dist max_dist dget] in H. destruct (r =? 0), (r =? 1); destruct H as [H|H]; try discriminate H; injection H as <-; lia.
  - split; [cbn; lia|]. intros b x I. unfold all_at, defined_at in *. unfold f_prog in *. cbn [dget] in *.
    destruct (b =? 0); [vm_compute in I; destruct I as [<-|[]]; vm_compute; reflexivity|]. destruct (b =? 4); [vm_compute in I; destruct I as [<-|[<-|[]]]; vm_compute; reflexivity|]. destruct (b =? 8); [vm_compute in I; destruct I as [<-|[<-|[]]]; vm_compute; reflexivity|]. destruct I.
  - split; [cbn; lia|]. intros b x I. unfold all_at, defined_at in *. unfold f_prog in *. cbn [dget] in *.
    destruct (b =? 0); [vm_compute in I; destruct I as [<-|[]]; vm_compute; reflexivity|]. destruct (b =? 4); [vm_compute in I; destruct I as [<-|[<-|[]]]; vm_compute; reflexivity|]. destruct (b =? 8); [vm_compute in I; destruct I as [<-|[<-|[]]]; vm_compute; reflexivity|]. destruct I.
  - repeat split.
    + eexists. split; [vm_compute; reflexivity|]. split; [discriminate|]. intros s [<-|[]]. reflexivity.
    + intros (x & E & _). vm_compute in E. discriminate E. Qed.
