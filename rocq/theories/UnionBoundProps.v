(** C176: how the union and the intersection of independent events relate to
    the events. *)
From Verif Require Import ListLemmas ProbModel ProbProps.
From Coq Require Import ZifyBool ZifyNat Lqa.
Local Open Scope Q_scope.

Definition probability (p : Q) : Prop := 0 <= p <= 1.
Definition sum_of (ps : list Q) : Q := fold_right Qplus 0 ps.

Lemma union_value ps fuel q : (2 ^ length ps <= fuel)%nat -> indep_events_union fuel ps = Ok q -> ps <> [] /\ q == 1 - none_of ps.
Proof. intros F H. pose proof (C56_union ps fuel F) as X. destruct ps; [congruence|]. split; [discriminate|]. destruct X as (q' & X & Y). assert (q' = q) as <- by congruence. exact Y. Qed.

Lemma none_cons p ps : none_of (p :: ps) = (1 - p) * none_of ps.
Proof. reflexivity. Qed.
Lemma none_prob ps : Forall probability ps -> probability (none_of ps).
Proof. intros H. apply qproduct_prob. intros x X. apply in_map_iff in X. destruct X as (p & <- & P). rewrite Forall_forall in H. specialize (H p P). destruct H. lra. Qed.
Lemma none_app ps rs : none_of (ps ++ rs) == none_of ps * none_of rs.
Proof. induction ps as [|p ps IH]; cbn [app]; [unfold none_of at 2; cbn [map qproduct]; ring|]. rewrite !none_cons, IH. ring. Qed.

Lemma none_each ps p : Forall probability ps -> In p ps -> none_of ps <= 1 - p.
Proof. intros H I. induction H as [|x ps X H IH]; [destruct I|]. rewrite none_cons. pose proof (none_prob ps H) as [N0 N1]. destruct X as [X0 X1]. destruct I as [->|I]; [nra|].
  specialize (IH I). rewrite Forall_forall in H. destruct (H p I). nra. Qed.
Lemma none_sum ps : Forall probability ps -> 1 - sum_of ps <= none_of ps.
Proof. induction 1 as [|x ps X H IH]; [unfold none_of; cbn; lra|]. rewrite none_cons. cbn [sum_of fold_right]. fold (sum_of ps). pose proof (none_prob ps H) as [N0 N1]. destruct X as [X0 X1]. nra. Qed.
Lemma none_zero ps : none_of ps == 0 -> exists p, In p ps /\ p == 1.
Proof. induction ps as [|x ps IH]; [intros Z0; unfold none_of in Z0; cbn in Z0; lra|]. rewrite none_cons. intros Z0. apply Qmult_integral in Z0. destruct Z0 as [Z0|Z0]; [exists x; split; [left; reflexivity|lra]|].
  destruct (IH Z0) as (p & I & P). exists p. split; [right; exact I|exact P]. Qed.
Lemma none_one ps : (forall p, In p ps -> p == 0) -> none_of ps == 1.
Proof. induction ps as [|x ps IH]; intros H; [reflexivity|]. rewrite none_cons, IH by (intros; apply H; right; assumption). rewrite (H x) by (left; reflexivity). ring. Qed.
Lemma none_mono ps ps' : Forall probability ps -> Forall probability ps' -> Forall2 Qle ps ps' -> none_of ps' <= none_of ps.
Proof. intros H H' L. induction L as [|p p' ps ps' P L IH]; [apply Qle_refl|]. inversion_clear H as [|? ? [A0 A1] H0]. inversion_clear H' as [|? ? [B0 B1] H1]. specialize (IH H0 H1).
  rewrite !none_cons. pose proof (none_prob ps' H1) as [N0 N1]. pose proof (none_prob ps H0) as [M0 M1]. nra. Qed.
Lemma product_each ps p : Forall probability ps -> In p ps -> qproduct ps <= p.
Proof. intros H I. induction H as [|x ps X H IH]; [destruct I|]. cbn [qproduct]. assert (Q0 : 0 <= qproduct ps <= 1) by (apply qproduct_prob; rewrite Forall_forall in H; exact H). destruct Q0, X.
  destruct I as [->|I]; [nra|]. specialize (IH I). rewrite Forall_forall in H. destruct (H p I). nra. Qed.

(** C176.  At least as probable as each event, at most their sum; certain exactly
    if one of them is, impossible exactly if all are. *)
Theorem C176_bounds : forall ps fuel q, Forall probability ps -> (2 ^ length ps <= fuel)%nat -> indep_events_union fuel ps = Ok q ->
  (forall p, In p ps -> indep_intersection ps <= p <= q) /\ q <= sum_of ps /\
  (q == 1 <-> exists p, In p ps /\ p == 1) /\ (q == 0 <-> forall p, In p ps -> p == 0).
Proof. intros ps fuel q H F U. destruct (union_value _ _ _ F U) as [_ V]. rewrite V. split; [|split; [|split; split]].
  - intros p I. rewrite C56_intersection. split; [apply product_each; assumption|]. pose proof (none_each ps p H I). lra.
  - pose proof (none_sum ps H). lra.
  - intros E. apply none_zero. lra.
  - intros (p & I & P). pose proof (none_each ps p H I). pose proof (none_prob ps H) as [N0 N1]. lra.
  - intros E p I. pose proof (none_each ps p H I). rewrite Forall_forall in H. destruct (H p I). lra.
  - intros Z0. rewrite (none_one ps Z0). ring. Qed.
Print Assumptions C176_bounds.

(** More probable events make a more probable union. *)
Theorem C176_monotone : forall ps ps' fuel q q', Forall probability ps -> Forall probability ps' -> Forall2 Qle ps ps' ->
  (2 ^ length ps <= fuel)%nat -> indep_events_union fuel ps = Ok q -> indep_events_union fuel ps' = Ok q' -> q <= q'.
Proof. intros ps ps' fuel q q' H H' L F U U'. destruct (union_value _ _ _ F U) as [_ V]. assert (E : length ps = length ps') by (clear -L; induction L; cbn; congruence). rewrite E in F. destruct (union_value _ _ _ F U') as [_ V'].
  rewrite V, V'. pose proof (none_mono _ _ H H' L). lra. Qed.
Print Assumptions C176_monotone.

(** Events may be united in two groups first; a further group never makes the
    union less probable. *)
Theorem C176_groups : forall ps rs fuel q r, (2 ^ length (ps ++ rs) <= fuel)%nat -> (4 <= fuel)%nat ->
  indep_events_union fuel ps = Ok q -> indep_events_union fuel rs = Ok r ->
  exists u v, indep_events_union fuel (ps ++ rs) = Ok u /\ indep_events_union fuel [q; r] = Ok v /\ u == v /\
    (Forall probability (ps ++ rs) -> q <= u /\ r <= u).
Proof. intros ps rs fuel q r F F4 U R. rewrite app_length in F.
  assert (P : (2 ^ length ps <= fuel)%nat) by (eapply Nat.le_trans; [|exact F]; apply Nat.pow_le_mono_r; lia).
  assert (P' : (2 ^ length rs <= fuel)%nat) by (eapply Nat.le_trans; [|exact F]; apply Nat.pow_le_mono_r; lia).
  destruct (union_value _ _ _ P U) as [Ne V]. destruct (union_value _ _ _ P' R) as [_ W].
  pose proof (C56_union (ps ++ rs) fuel ltac:(rewrite app_length; exact F)) as X. destruct (ps ++ rs) as [|x l] eqn:E; [destruct ps; [congruence|discriminate]|]. rewrite <- E in *. destruct X as (u & X & Y).
  destruct (C56_union [q; r] fuel F4) as (v & X' & Y'). exists u, v. split; [exact X|]. split; [exact X'|]. rewrite none_app in Y.
  assert (G : none_of [q; r] == none_of ps * none_of rs). { rewrite !none_cons. unfold none_of at 1. cbn [map qproduct]. rewrite V, W. ring. }
  split; [rewrite Y, Y', G; reflexivity|]. intros H. apply Forall_app in H as [H H']. pose proof (none_prob ps H) as [N0 N1]. pose proof (none_prob rs H') as [M0 M1]. rewrite Y, V, W. split; nra. Qed.
Print Assumptions C176_groups.

Example C176_example : Forall probability [1 # 2; 1 # 3] /\ Forall2 Qle [1 # 2; 1 # 3] [1 # 2; 1 # 2] /\
  (exists q, indep_events_union 8 [1 # 2; 1 # 3] = Ok q /\ q == 2 # 3) /\ (exists q, indep_events_union 8 [1 # 2; 1 # 2] = Ok q /\ q == 3 # 4) /\
  (exists q, indep_events_union 8 [1 # 5] = Ok q /\ q == 1 # 5) /\ (exists q, indep_events_union 8 [1 # 2; 1 # 3; 1 # 5] = Ok q /\ q == 11 # 15) /\
  sum_of [1 # 2; 1 # 3] == 5 # 6 /\ indep_intersection [1 # 2; 1 # 3] == 1 # 6.
Proof. unfold probability. split; [repeat constructor; cbn; discriminate|]. split; [repeat constructor; discriminate|]. do 4 (split; [eexists; split; [vm_compute; reflexivity|reflexivity]|]). split; reflexivity. Qed.
