(** C115, calls into the program: what the graph says instead. *)
From Verif Require Import ListLemmas CfgEdgeProps.
From Coq Require Import ZifyBool ZifyNat.

(** After a call to an instruction of the program, when the next instruction has another
    condition: the only way on is to the target, and if the target is behind the call
    there is none at all. *)
Theorem C115_call_inside : forall program st x y t b, build program = Ok st ->
  jumps_to program x t -> next_defined program x y -> ~ same_condition program y x -> ends_with st b x ->
  forall b', edges (c_graph st) b b' -> (t <= x)%nat /\ starts_with st b' t.
Proof.
  intros program st x y t b E J N D S b' X. destruct (C117_edges_partial program st E) as (origin & _ & H). pose proof (H b b' X) as R.
  assert (Bx : branches program x) by (destruct J as (c & d & J1 & _ & J3 & _); exists c; auto).
  assert (Dx : defined_at program x) by (apply N).
  assert (I : In x (instructions st b)) by (destruct S as (_ & l & ->); apply in_app_iff; right; left; reflexivity).
  destruct (block_kind program st b x E I) as (A1 & A2 & A3 & A4).
  assert (Carry : forall i, carried program i x -> i = x). { intros i (_ & _ & L & C). destruct (Nat.eq_dec i x) as [|Ne]; [assumption|]. exfalso. apply (C x); [lia|exact Dx|exact Bx]. }
  assert (Uniq : forall z, next_defined program x z -> z = y).
  { intros z (_ & Dz & Lz & Cz). destruct N as (_ & Dy & Ly & Cy). destruct (Nat.lt_trichotomy z y) as [L|[L|L]]; [|assumption|]; exfalso; [apply (Cy z)|apply (Cz y)]; auto. }
  assert (Flow : forall z, ~ flows program x z). { intros z [[Nz [B|C]]|(i & _ & _ & B)]; [contradiction| |contradiction]. rewrite (Uniq z Nz) in C. contradiction. }
  destruct R as [x' y' S' T' F|x' y' i S' T' C Gt Le|x' S' K F|x' S' K C O|x' S' K F|y' K|K|y' K|K|K|y' K|K|K]; try congruence; pose proof (ends_unique _ _ _ _ S S') as <-.
  - exfalso. exact (Flow _ F).
  - rewrite (Carry i C) in *. assert (y' = t) as ->; [|split; assumption].
    destruct J as (c & d & J1 & J2 & J3 & J4 & J5 & J6), Gt as (c' & d' & G1 & G2 & G3 & G4 & G5 & G6). assert (c' = c) as -> by congruence.
    destruct (Nat.lt_trichotomy y' t) as [L|[L|L]]; [|assumption|]; exfalso; [apply (J6 y' d' L G4)|apply (G6 t d L J4)]; congruence.
  - exfalso. exact (Flow _ F).
  - exfalso. rewrite (Carry _ C) in *. destruct O as (c & O1 & O2), J as (c' & d & J1 & _ & _ & J4 & J5 & _). assert (c' = c) as -> by congruence. exact (O2 t d J4 J5).
  - exfalso. destruct F as [[_ F]|(i & (Ni & _ & _ & Sc) & _)]; [destruct N as (_ & Dy & Ly & _); exact (F y Ly Dy)|]. rewrite (Uniq i Ni) in Sc. contradiction.
Qed.
Print Assumptions C115_call_inside.
(** A call back to the first instruction, and one ahead to the last, each followed by an
    instruction with another condition. *)
Example C115_inside_example : let program := [plain 0; Ci false true true 14 4 (Some 0); Ci false false false 1 8 None; Ci false true true 14 12 (Some 20); Ci false false false 1 16 None; plain 20] in
  exists st, build program = Ok st /\ jumps_to program 1 0 /\ next_defined program 1 2 /\ ends_with st 4 1 /\ edges (c_graph st) 4 3 /\ jumps_to program 3 5 /\ next_defined program 3 4 /\ ends_with st 7 3 /\ forall b, ~ edges (c_graph st) 7 b.
Proof.
  eexists. split; [vm_compute; reflexivity|].
  split; [eexists _, _; do 5 (split; [reflexivity|]); intros t d L; lia|]. split; [split; [eexists; split; reflexivity|]; split; [eexists; split; reflexivity|]; split; [lia|intros j J; lia]|].
  split; [vm_compute; split; [auto 14|exists []; reflexivity]|]. split; [reflexivity|].
  split; [eexists _, _; do 5 (split; [reflexivity|]); intros t d L X; do 5 (destruct t as [|t]; [injection X as <-; discriminate|]); lia|]. split; [split; [eexists; split; reflexivity|]; split; [eexists; split; reflexivity|]; split; [lia|intros j J; lia]|].
  split; [vm_compute; split; [auto 14|exists []; reflexivity]|]. intros b X. apply has_edge_iff in X. vm_compute in X. intuition congruence.
Qed.

(** After a call outside the program whose condition is not that of the instruction before
    it, when the next instruction has another condition again: the only way on is to the
    unknown node, and from there to the end. *)
Theorem C115_dead_end : forall program st x y b, build program = Ok st ->
  call_outside program x -> next_defined program x y -> ~ same_condition program y x ->
  (forall w, next_defined program w x -> ~ same_condition program x w) -> ends_with st b x ->
  forall n, edges (c_graph st) b n -> unknown_node st n = true /\ forall m, edges (c_graph st) n m -> end_node st m = true.
Proof.
  intros program st x y b E J N D Before S n X. destruct (C117_edges_partial program st E) as (origin & _ & H). pose proof (H b n X) as R.
  assert (Bx : branches program x) by (destruct J as (c & J1 & _ & J3 & _); exists c; auto).
  assert (Dx : defined_at program x) by (apply N).
  assert (I : In x (instructions st b)) by (destruct S as (_ & l & ->); apply in_app_iff; right; left; reflexivity).
  destruct (block_kind program st b x E I) as (A1 & A2 & A3 & A4).
  assert (Carry : forall i, carried program i x -> i = x). { intros i (_ & _ & L & C). destruct (Nat.eq_dec i x) as [|Ne]; [assumption|]. exfalso. apply (C x); [lia|exact Dx|exact Bx]. }
  assert (Uniq : forall z, next_defined program x z -> z = y).
  { intros z (_ & Dz & Lz & Cz). destruct N as (_ & Dy & Ly & Cy). destruct (Nat.lt_trichotomy z y) as [L|[L|L]]; [|assumption|]; exfalso; [apply (Cy z)|apply (Cz y)]; auto. }
  assert (Flow : forall z, ~ flows program x z). { intros z [[Nz [B|C]]|(i & _ & _ & B)]; [contradiction| |contradiction]. rewrite (Uniq z Nz) in C. contradiction. }
  assert (Un : forall m, unknown_node st m = true -> conditional_node st m = false /\ root_node st m = false /\ instructions st m = []).
  { intros m K. split; [|split].
    - unfold unknown_node, conditional_node in *. destruct (dget (c_blocks st) m) as [[[] l]|]; congruence.
    - unfold unknown_node, root_node in *. destruct (dget (c_blocks st) m) as [[[] l]|]; congruence.
    - destruct (instructions st m) as [|i l] eqn:Ei; [reflexivity|]. destruct (block_kind program st m i E) as (_ & K' & _); [rewrite Ei; left; reflexivity|congruence]. }
  destruct R as [x' y' S' T' F|x' y' i S' T' C Gt Le|x' S' K F|x' S' K C O|x' S' K F|y' K|K|y' K|K|K|y' K|K|K]; try congruence; pose proof (ends_unique _ _ _ _ S S') as <-.
  - exfalso. exact (Flow _ F).
  - exfalso. rewrite (Carry i C) in *. destruct J as (c & J1 & _ & _ & _ & J5), Gt as (c' & d' & G1 & G2 & G3 & G4 & G5 & G6). assert (c' = c) as -> by congruence. exact (J5 y' d' G4 G5).
  - exfalso. exact (Flow _ F).
  - split; [exact K|]. intros m Y. pose proof (Carry _ C) as Ox. destruct (Un n K) as (B1 & B2 & B3).
    assert (No : ~ resumed program (origin n)) by (rewrite Ox; intros (_ & w & Nw & Sw); exact (Before w Nw Sw)).
    assert (Ne : forall z, ~ ends_with st n z) by (intros z (_ & l & Z); rewrite B3 in Z; destruct l; discriminate).
    destruct (H n m Y) as [x' y' S2|x' y' i S2|x' S2|x' S2|x' S2|y' K2|K2|y' K2|K2|K2|y' K2 T2 L2|K2 T2 L2|K2 T2]; try congruence; try (exfalso; eapply Ne; eassumption); contradiction.
  - exfalso. destruct F as [[_ F]|(i & (Ni & _ & _ & Sc) & _)]; [destruct N as (_ & Dy & Ly & _); exact (F y Ly Dy)|]. rewrite (Uniq i Ni) in Sc. contradiction.
Qed.
Print Assumptions C115_dead_end.
(** A conditional call outside between two unconditional instructions: the second of them
    is reached only past the test, never after the call. *)
Example C115_dead_end_example : let program := [plain 0; Ci false true true 1 4 (Some 400); plain 8] in
  exists st, build program = Ok st /\ call_outside program 1 /\ next_defined program 1 2 /\ ~ same_condition program 2 1 /\ (forall w, next_defined program w 1 -> ~ same_condition program 1 w) /\ exists b n, ends_with st b 1 /\ edges (c_graph st) b n.
Proof.
  eexists. split; [vm_compute; reflexivity|].
  split; [eexists; do 4 (split; [reflexivity|]); intros t d T X; do 3 (destruct t as [|t]; [injection T as <-; discriminate|]); destruct t; discriminate|].
  split; [split; [eexists; split; reflexivity|]; split; [eexists; split; reflexivity|]; split; [lia|intros j J; lia]|].
  split; [intros (c & (a & A1 & A2) & (b & B1 & B2)); injection A1 as <-; injection B1 as <-; subst c; discriminate|].
  split; [intros w (_ & _ & L & _) (c & (a & A1 & A2) & (b & B1 & B2)); assert (w = 0%nat) as -> by lia; injection A1 as <-; injection B1 as <-; subst c; discriminate|].
  exists 4, 6. split; [vm_compute; split; [auto 14|exists []; reflexivity]|reflexivity].
Qed.
