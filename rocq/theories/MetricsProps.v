(** C149: the metrics of a program. *)
From Verif Require Import ListLemmas FlipProofs MetaModel MetaSpec MetaProofs MetaProps MetricsModel.
From Coq Require Import ZifyBool ZifyNat Sorted.

(** ** Specification *)
Definition total_of (l : list Z) : Z := fold_right Z.add 0 l.
(** The encodings of the instructions that count. *)
Definition encoded (insts : list dinst) (e : Z) : Prop := exists i, In i insts /\ d_ignore i = false /\ d_enc i = e.
(** The lines: every encoding once, the largest first, each with the distance from the one
    before. *)
Definition lines_of (insts : list dinst) (lines : list (Z * Z)) : Prop :=
  (forall e, In e (map fst lines) <-> encoded insts e) /\ StronglySorted Z.gt (map fst lines) /\
  (forall n e d, nth_error lines n = Some (e, d) -> match n with O => d = 0 | S m => exists e' d', nth_error lines m = Some (e', d') /\ d = e' - e end) /\
  (forall hi lo, encoded insts hi -> encoded insts lo -> (forall e, encoded insts e -> lo <= e <= hi) -> total_of (map snd lines) = hi - lo).

(** *** Proof *)
Lemma spaces_fst : forall l prev, map fst (spaces prev l) = map d_enc l.
Proof. induction l as [|i l IH]; intros prev; [reflexivity|]. cbn [spaces map fst]. now rewrite IH. Qed.
Lemma spaces_nth : forall l prev, StronglySorted (fun x y => d_enc x > d_enc y) (match prev with Some j => j :: l | None => l end) ->
  forall n e d, nth_error (spaces prev l) n = Some (e, d) -> match n with
    | O => d = match prev with Some j => d_enc j - e | None => 0 end
    | S m => exists e' d', nth_error (spaces prev l) m = Some (e', d') /\ d = e' - e end.
Proof.
  induction l as [|i l IH]; intros prev S n e d H; [destruct n; discriminate|]. destruct n as [|n]; cbn [spaces nth_error] in *.
  - injection H as <- <-. destruct prev as [j|]; [|reflexivity]. inversion S as [|? ? _ F]; subst. inversion F; subst. lia.
  - assert (S' : StronglySorted (fun x y => d_enc x > d_enc y) (i :: l)) by (destruct prev; [inversion S; assumption|exact S]). specialize (IH (Some i) S' n e d H). destruct n as [|n]; [eexists; eexists; split; [reflexivity|exact IH]|exact IH].
Qed.
Lemma last_any {A} (l : list A) x d d' : last (x :: l) d = last (x :: l) d'.
Proof. revert x. induction l as [|y l IH]; intros x; [reflexivity|]. change (last (y :: l) d = last (y :: l) d'). apply IH. Qed.
Lemma spaces_total : forall l i prev, StronglySorted (fun x y => d_enc x > d_enc y) (i :: l) -> total_of (map snd (spaces prev (i :: l))) = (match prev with Some j => Z.abs (d_enc j - d_enc i) | None => 0 end) + (d_enc i - d_enc (last (i :: l) i)).
Proof.
  induction l as [|x l IH]; intros i prev S; [cbn; lia|]. change (spaces prev (i :: x :: l)) with ((d_enc i, match prev with None => 0 | Some j => Z.abs (d_enc j - d_enc i) end) :: spaces (Some i) (x :: l)). cbn [map snd total_of fold_right]. fold (total_of (map snd (spaces (Some i) (x :: l)))).
  inversion S as [|? ? S' F]; subst. rewrite (IH x (Some i) S'). inversion F; subst. change (last (i :: x :: l) i) with (last (x :: l) i). rewrite (last_any l x i x). lia.
Qed.
Lemma last_least l i : StronglySorted (fun x y => d_enc x > d_enc y) (i :: l) -> In (last (i :: l) i) (i :: l) /\ forall j, In j (i :: l) -> d_enc (last (i :: l) i) <= d_enc j.
Proof.
  revert i. induction l as [|x l IH]; intros i S; [cbn; split; [auto|intros j [<-|[]]; lia]|]. inversion S as [|? ? S' F]; subst. destruct (IH x S') as [A B]. change (last (i :: x :: l) i) with (last (x :: l) i). rewrite (last_any l x i x). split; [right; exact A|].
  intros j [<-|I]; [|apply B, I]. rewrite Forall_forall in F. specialize (F _ A). lia.
Qed.
Lemma zrange_nth a b n : (n < Z.to_nat (b - a))%nat -> nth n (zrange a b) 0 = a + Z.of_nat n.
Proof. revert a. induction n as [|n IH]; intros a H; rewrite zrange_cons by lia; cbn [nth]; [lia|]. rewrite IH by lia. lia. Qed.
Lemma bars_nth d n k : 0 <= k < n -> nth (Z.to_nat k) (bars d n) 0 = match dget d k with Some v => v | None => 0 end.
Proof.
  intros K. unfold bars. set (f := fun i => match dget d i with Some v => v | None => 0 end). assert (L : length (zrange 0 n) = Z.to_nat n) by (rewrite zrange_length; f_equal; lia). rewrite (nth_indep _ 0 (f 0)) by (rewrite map_length, L; lia). rewrite map_nth. replace (nth (Z.to_nat k) (zrange 0 n) 0) with k; [reflexivity|]. rewrite zrange_nth by lia. lia.
Qed.

(** ** C149 *)
Theorem C149_lines : forall insts, lines_of insts (m_lines (collect_and_print insts)).
Proof.
  intros insts. unfold collect_and_print. cbv zeta. cbn [m_lines]. destruct (C36_empty_spaces new_collector insts) as (S & I & J). cbv zeta in *. set (l := empty_spaces (collect new_collector insts)) in *.
  assert (En : forall e, In e (map d_enc l) <-> encoded insts e).
  { intros e. rewrite in_map_iff. unfold encoded, kept in *. split.
    - intros (i & <- & H). specialize (I i H). apply filter_In in I as [I1 I2]. exists i. split; [exact I1|]. split; [destruct (d_ignore i); [discriminate|reflexivity]|reflexivity].
    - intros (i & H & Ig & <-). destruct (J i) as (j & Hj & Ej); [apply filter_In; split; [exact H|rewrite Ig; reflexivity]|]. exists j. auto. }
  unfold lines_of. rewrite spaces_fst. split; [exact En|]. split; [|split].
  - clear - S. induction S as [|x l S IH F]; cbn [map]; constructor; [exact IH|]. rewrite Forall_forall in *. intros e He. apply in_map_iff in He as (y & <- & Hy). apply F, Hy.
  - intros n e d H. exact (spaces_nth l None S n e d H).
  - intros hi lo Hhi Hlo Hb. apply En in Hhi, Hlo. destruct l as [|i l]; [destruct Hhi|]. rewrite (spaces_total l i None S). destruct (last_least l i S) as [A B]. assert (Top : forall j, In j (i :: l) -> d_enc j <= d_enc i) by (intros j [<-|Hj]; [lia|]; inversion S as [|? ? _ F]; subst; rewrite Forall_forall in F; specialize (F j Hj); lia).
    assert (hi = d_enc i). { apply in_map_iff in Hhi as (j & <- & Hj). specialize (Top j Hj). assert (X : encoded insts (d_enc i)) by (apply En; left; reflexivity). specialize (Hb _ X). lia. }
    assert (lo = d_enc (last (i :: l) i)). { apply in_map_iff in Hlo as (j & <- & Hj). specialize (B j Hj). assert (X : encoded insts (d_enc (last (i :: l) i))) by (apply En, in_map, A). specialize (Hb _ X). lia. }
    lia.
Qed.
Print Assumptions C149_lines.
(** The bars: storages below 18, conditions below 15, opcodes below 200. *)
Theorem C149_bars : forall insts, let m := collect_and_print insts in
  (length (m_registers m) = 18%nat /\ forall k, 0 <= k < 18 -> nth (Z.to_nat k) (m_registers m) 0 = occurrences k insts) /\
  (length (m_conditions m) = 15%nat /\ forall k, 0 <= k < 15 -> nth (Z.to_nat k) (m_conditions m) 0 = how_many (fun i => d_cond i =? k) insts) /\
  (length (m_opcodes m) = 200%nat /\ forall k, 0 <= k < 200 -> nth (Z.to_nat k) (m_opcodes m) 0 = how_many (fun i => d_op i =? k) insts).
Proof.
  intros insts. cbv zeta. unfold collect_and_print. cbv zeta. cbn [m_registers m_conditions m_opcodes].
  assert (L : forall d n, length (bars d n) = Z.to_nat n) by (intros d n; unfold bars; rewrite map_length, zrange_length; f_equal; lia).
  assert (E : forall n, match entry_for n with Some v => v | None => 0 end = n) by (intros n; unfold entry_for; destruct (n =? 0) eqn:X; lia).
  assert (C : forall k, dget (condition_count (collect new_collector insts)) k = entry_for (how_many (fun i => d_cond i =? k) insts) /\ dget (instruction_count (collect new_collector insts)) k = entry_for (how_many (fun i => d_op i =? k) insts) /\ dget (storage_count (collect new_collector insts)) k = entry_for (occurrences k insts)).
  { intros k. pose proof (C34_counts [insts] k) as X. cbn [fold_left concat] in X. rewrite app_nil_r in X. exact X. }
  split; [|split]; (split; [apply L|]); intros k K; rewrite bars_nth by exact K; destruct (C k) as (C1 & C2 & C3); [rewrite C3|rewrite C1|rewrite C2]; apply E.
Qed.
Print Assumptions C149_bars.
(** Five instructions that count, one encoding twice. *)
Example C149_example : m_lines (collect_and_print demo) = [(70, 0); (65, 5); (60, 5); (50, 10)] /\ encoded demo 70 /\ encoded demo 50 /\ nth 2 (m_registers (collect_and_print demo)) 0 = 3 /\ nth 14 (m_conditions (collect_and_print demo)) 0 = 4.
Proof. split; [vm_compute; reflexivity|]. split; [eexists; split; [right; right; left; reflexivity|split; reflexivity]|]. split; [eexists; split; [left; reflexivity|split; reflexivity]|]. vm_compute. auto. Qed.
