(** C56: union of independent events. *)
From Verif Require Import ListLemmas ProbModel.
From Coq Require Import ZifyBool ZifyNat Permutation Lqa.

(** Product of all numbers, and of all their complements. *)
Fixpoint qproduct (l : list Q) : Q := match l with [] => 1%Q | q :: l' => (q * qproduct l')%Q end.
Definition none_of (l : list Q) : Q := qproduct (map (fun p => 1 - p)%Q l).

Section Loop.
Context (ps : list Q).
Local Notation n := (length ps).

Definition next (b : list nat) : list nat := match b with [] => [] | x :: b' => S x :: b' end.
Definition sign (b : list nat) : Q := if Nat.odd (length b) then (-1)%Q else 1%Q.
Definition value (b : list nat) : Q := match stack_product ps b with Ok q => q | Err _ => 0%Q end.

Lemma product_ok b : (forall j, In j b -> (j < n)%nat) -> exists q, stack_product ps b = Ok q.
Proof. unfold stack_product. intros H. assert (H' : forall j, In j (rev b) -> (j < n)%nat) by (intros j J; apply H, in_rev, J). clear H. revert H'. generalize 1%Q. induction (rev b) as [|j l IH]; intros x H; cbn [foldM]; [eauto|].
  unfold nth_r. destruct (nth_error ps j) eqn:E; [cbn [bind]; apply IH; intros; apply H; right; assumption|]. apply nth_error_None in E. specialize (H j ltac:(left; reflexivity)). lia. Qed.
Lemma product_cons t b p : (forall j, In j b -> (j < n)%nat) -> nth_error ps t = Some p -> stack_product ps (t :: b) = Ok (value b * p)%Q.
Proof. intros H E. destruct (product_ok b H) as (q & Eq). unfold value. rewrite Eq. unfold stack_product in *. cbn [rev]. rewrite foldM_app, Eq. cbn [bind foldM]. unfold nth_r. rewrite E. reflexivity. Qed.

Lemma skipn_nth t p : nth_error ps t = Some p -> skipn t ps = p :: skipn (S t) ps.
Proof. revert t. clear. induction ps as [|x l IH]; intros t E; destruct t; cbn in *; try discriminate; [congruence|]. apply IH, E. Qed.

Lemma union_steps : forall d t b r fuel, (t + d = n)%nat -> (0 < d)%nat -> (forall j, In j b -> (j < t)%nat) ->
  exists r', union_loop ps (2 ^ d - 1 + fuel) (t :: b) r = union_loop ps fuel (next b) r' /\
    (r' == r + sign b * value b * (1 - none_of (skipn t ps)))%Q.
Proof. induction d as [|d IH]; intros t b r fuel E D B; [lia|].
  assert (T : (t < n)%nat) by lia. destruct (nth_error ps t) as [p|] eqn:Et; [|apply nth_error_None in Et; lia].
  assert (P2 : (2 ^ S d = 2 ^ d + 2 ^ d)%nat) by (cbn [Nat.pow]; lia). assert (P1 : (1 <= 2 ^ d)%nat) by (clear; induction d; cbn [Nat.pow]; lia).
  replace (2 ^ S d - 1 + fuel)%nat with (S ((2 ^ d - 1) + ((2 ^ d - 1) + fuel)))%nat by lia. cbn [union_loop].
  assert (Bn : forall j, In j b -> (j < n)%nat) by (intros j J; specialize (B j J); lia). rewrite (product_cons t b p Bn Et). cbn [bind].
  set (r1 := if Nat.odd (length (t :: b)) then (r + value b * p)%Q else (r - value b * p)%Q).
  assert (R1 : (r1 == r + sign b * value b * p)%Q).
  { unfold r1, sign. cbn [length]. rewrite Nat.odd_succ, <- Nat.negb_odd. destruct (Nat.odd (length b)); cbn [negb]; ring. }
  rewrite (skipn_nth t p Et). unfold none_of. cbn [map qproduct]. fold (none_of (skipn (S t) ps)).
  destruct d as [|d].
  - replace (S t <? n)%nat with false by lia. cbn [Nat.pow Nat.sub Nat.add]. exists r1. split; [destruct b; reflexivity|]. rewrite R1, skipn_all2 by lia. unfold none_of. cbn [map qproduct]. ring.
  - replace (S t <? n)%nat with true by lia. destruct (IH (S t) (t :: b) r1 (2 ^ S d - 1 + fuel)%nat) as (r2 & E2 & R2); [lia|lia|intros j [<-|J]; [lia|specialize (B j J); lia]|].
    rewrite E2. cbn [next]. destruct (IH (S t) b r2 fuel) as (r3 & E3 & R3); [lia|lia|intros j J; specialize (B j J); lia|]. rewrite E3. exists r3. split; [reflexivity|]. rewrite R3, R2, R1.
    assert (V : value (t :: b) = (value b * p)%Q) by (unfold value at 1; rewrite (product_cons t b p Bn Et); reflexivity). rewrite V.
    assert (S2 : (sign (t :: b) == - sign b)%Q) by (unfold sign; cbn [length]; rewrite Nat.odd_succ, <- Nat.negb_odd; destruct (Nat.odd (length b)); reflexivity). rewrite S2. ring. Qed.
End Loop.

Lemma qproduct_perm l l' : Permutation l l' -> (qproduct l == qproduct l')%Q.
Proof. induction 1 as [|x l l' P IH|x y l|l l' l'' P1 IH1 P2 IH2]; cbn [qproduct]; [reflexivity|rewrite IH; reflexivity|ring|rewrite IH1; exact IH2]. Qed.
Lemma qproduct_prob l : (forall p, In p l -> (0 <= p <= 1)%Q) -> (0 <= qproduct l <= 1)%Q.
Proof. induction l as [|p l IH]; intros H; cbn [qproduct]; [lra|]. destruct (H p ltac:(left; reflexivity)). destruct IH as [A B]; [intros; apply H; right; assumption|]. split; nra. Qed.

(** C56.  Every list of numbers; enough loop rounds (2^n). *)
Theorem C56_union : forall ps fuel, (2 ^ length ps <= fuel)%nat ->
  match ps with
  | [] => indep_events_union fuel ps = Err RuntimeError
  | _ => exists q, indep_events_union fuel ps = Ok q /\ (q == 1 - none_of ps)%Q
  end.
Proof. intros ps fuel F. destruct ps as [|p l] eqn:E; [reflexivity|]. rewrite <- E in *. assert (N : (0 < length ps)%nat) by (rewrite E; cbn; lia).
  replace (indep_events_union fuel ps) with (union_loop ps fuel [0%nat] 0%Q) by (rewrite E; reflexivity).
  assert (P1 : (1 <= 2 ^ length ps)%nat) by (clear; induction (length ps); cbn [Nat.pow]; lia).
  destruct (union_steps ps (length ps) 0 [] 0%Q (fuel - (2 ^ length ps - 1))%nat) as (q & E1 & E2); [lia|lia|intros j []|].
  replace (2 ^ length ps - 1 + (fuel - (2 ^ length ps - 1)))%nat with fuel in E1 by lia. exists q. split.
  - rewrite E1. cbn [next]. destruct (fuel - (2 ^ length ps - 1))%nat eqn:Ef; [lia|]. reflexivity.
  - rewrite E2. unfold sign, value. cbn [stack_product rev foldM length Nat.odd Nat.even negb skipn]. unfold stack_product. cbn [rev foldM]. ring. Qed.
Print Assumptions C56_union.
Theorem C56_probability : forall ps fuel q, (2 ^ length ps <= fuel)%nat -> indep_events_union fuel ps = Ok q ->
  ((forall p, In p ps -> (0 <= p <= 1)%Q) -> (0 <= q <= 1)%Q) /\
  (forall ps', Permutation ps ps' -> exists q', indep_events_union fuel ps' = Ok q' /\ (q' == q)%Q).
Proof. intros ps fuel q F H. assert (E : (q == 1 - none_of ps)%Q). { pose proof (C56_union ps fuel F) as X. destruct ps; [congruence|]. destruct X as (q' & X & Y). assert (q' = q) as <- by congruence. exact Y. } split.
  - intros P. destruct (qproduct_prob (map (fun p => 1 - p)%Q ps)) as [A B]; [|fold (none_of ps) in A, B; lra]. intros x Hx. apply in_map_iff in Hx. destruct Hx as (p & <- & Hp). specialize (P p Hp). lra.
  - intros ps' P. pose proof (C56_union ps' fuel) as X. rewrite <- (Permutation_length P) in X. specialize (X F). destruct ps' as [|p' l'] eqn:E'; [apply Permutation_sym, Permutation_nil in P; subst ps; discriminate|]. rewrite <- E' in *.
    destruct X as (q' & X & Y). exists q'. split; [exact X|]. rewrite Y, E. unfold none_of. rewrite (qproduct_perm (map (fun p => 1 - p)%Q ps') (map (fun p => 1 - p)%Q ps)); [reflexivity|]. apply Permutation_map, Permutation_sym, P. Qed.
Print Assumptions C56_probability.
Theorem C56_intersection : forall ps, (indep_intersection ps == qproduct ps)%Q.
Proof. intros ps. unfold indep_intersection. assert (G : forall x, (fold_left (fun p r => p * r)%Q ps x == x * qproduct ps)%Q); [|rewrite G; ring].
  induction ps as [|p l IH]; intros x; cbn [fold_left qproduct]; [ring|]. rewrite IH. ring. Qed.
Print Assumptions C56_intersection.
(** The density over an interval of any width but 0, in either direction. *)
Theorem C56_uniform : forall a b, ((a == b)%Q -> uniform a b = Err ZeroDivisionError) /\ (~ (a == b)%Q -> exists q, uniform a b = Ok q /\ (q * (b - a) == 1)%Q).
Proof.
  intros a b. unfold uniform. destruct (Qeq_bool (b - a) 0) eqn:E; [apply Qeq_bool_eq in E|apply Qeq_bool_neq in E]; split; intros H; [reflexivity|exfalso; apply H; lra|exfalso; apply E; lra|].
  eexists. split; [reflexivity|]. field. exact E.
Qed.
Print Assumptions C56_uniform.
Example C56_example : match indep_events_union 8 [1 # 2; 1 # 3; 1 # 5]%Q with Ok q => Qred q = (11 # 15)%Q | Err _ => False end /\ indep_events_union 7 [1 # 2; 1 # 3; 1 # 5]%Q = Err OutOfFuel.
Proof. vm_compute. auto. Qed.
