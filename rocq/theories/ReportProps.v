(** C96-C102: the recovery report and the recovery driver. *)
From Verif Require Import ListLemmas ReportModel ReportSpec ReportProofs RecProofs.
From Coq Require Import ZifyBool ZifyNat Permutation Sorted Lqa.

(** A position with four candidates (the third is the original) and one with two. *)
Definition ex_o1 := mkPO 30 130.
Definition ex_v1 := [mkP 10 110 false (1#4) [(0, 1#4)]; mkP 20 120 false (1#2) [(0, 3#4); (1, 1#4)]; mkP 30 130 false (1#2) [(0, 1#2); (1, 1#2)]; mkP 40 140 false (3#4) [(0, 3#4); (2, 1#2)]].
Definition ex_o2 := mkPO 50 150.
Definition ex_v2 := [mkP 50 150 false (1#2) []; mkP 60 160 false (1#3) []].
Definition ex_o3 := mkPO 70 170.
Definition ex_v3 := [mkP 70 170 false (1#1) []].
Definition ex_o4 := mkPO 80 180.
Definition ex_v4 := [mkP 80 180 false (1#2) []; mkP 81 181 false (1#2) []; mkP 82 182 false (1#3) []].
Definition ex_os := [ex_o1; ex_o2; ex_o3; ex_o4].
Definition ex_vs := [ex_v1; ex_v2; ex_v3; ex_v4].
Ltac three := cbn; repeat constructor; cbn; intuition (try discriminate; try congruence).
Lemma ex_distinct o v : In (o, v) (combine ex_os ex_vs) -> contested v = true -> distinct o v.
Proof. cbn [ex_os ex_vs combine In]. intros [E|[E|[E|[E|[]]]]] _; injection E as <- <-; (split; [cbn; repeat constructor; cbn; lia|]); (split; [intros c H; cbn [In ex_v1 ex_v2 ex_v3 ex_v4] in H|intros c d H K; cbn [In ex_v1 ex_v2 ex_v3 ex_v4] in H, K]);
  repeat match goal with H : _ \/ _ |- _ => destruct H | H : False |- _ => destruct H end; subst; cbn; lia. Qed.
Lemma ex_rules v c : In v ex_vs -> In c v -> NoDup (dkeys (p_rules c)).
Proof. cbn [ex_vs In]. intros H K. destruct H as [<-|[<-|[<-|[<-|[]]]]]; cbn [In ex_v1 ex_v2 ex_v3 ex_v4] in K; repeat match goal with H : _ \/ _ |- _ => destruct H | H : False |- _ => destruct H end; subst; cbn; repeat constructor; cbn; lia. Qed.

(** ** C96 *)
Theorem C96_tally os vs t : fst (print_report os vs) = Ok t ->
  t_errors t = number (fun ov => contested (snd ov)) (combine os vs) /\ t_losing t + t_ties t + t_recovered t = t_errors t.
Proof. intros H. destruct (print_report_cases os vs) as (C1 & C2 & C3 & _). destruct (Nat.lt_ge_cases (length vs) (length os)) as [L|L]; [rewrite C1 in H by exact L; discriminate|].
  destruct (report_loop_lists os vs no_tally L) as (t' & E & A & B). destruct (Z.eq_dec (number (fun ov : porig * list pcand => contested (snd ov)) (combine os vs)) 0) as [Z0|Z0]; [rewrite C2 in H by assumption; discriminate|].
  destruct (C3 L Z0) as (t2 & X & Y). assert (t2 = t) as -> by congruence. rewrite E in Y. cbn [fst] in Y. assert (t' = t) as -> by congruence. cbn [t_errors t_losing t_ties t_recovered no_tally] in A, B. split; lia. Qed.
Print Assumptions C96_tally.
Example C96_example : exists t, fst (print_report ex_os ex_vs) = Ok t /\ (t_errors t, t_losing t, t_ties t, t_recovered t) = (3, 1, 1, 1).
Proof. eexists. vm_compute. split; reflexivity. Qed.

Lemma report_spec os vs t : (forall o v, In (o, v) (combine os vs) -> contested v = true -> distinct o v) -> (forall v c, In v vs -> In c v -> NoDup (dkeys (p_rules c))) -> fst (print_report os vs) = Ok t ->
  exists ws, report_loop no_tally os vs = (Ok t, ws).
Proof. intros _ _ H. destruct (print_report_cases os vs) as (C1 & C2 & C3 & _). destruct (Nat.lt_ge_cases (length vs) (length os)) as [L|L]; [rewrite C1 in H by exact L; discriminate|].
  destruct (Z.eq_dec (number (fun ov : porig * list pcand => contested (snd ov)) (combine os vs)) 0) as [Z0|Z0]; [rewrite C2 in H by assumption; discriminate|]. destruct (C3 L Z0) as (t2 & X & Y). assert (t2 = t) as -> by congruence. destruct (report_loop no_tally os vs) as [r ws]. cbn [fst] in Y. subst. eauto. Qed.

(** ** C97 *)
Definition both (f : porig -> list pcand -> bool) (ov : porig * list pcand) : bool := contested (snd ov) && f (fst ov) (snd ov).
Definition verdict_counts (os : list porig) (vs : list (list pcand)) (t : tally) : Prop :=
  t_recovered t = number (both strictly_best) (combine os vs) /\ t_losing t = number (both led_by_other) (combine os vs) /\ t_ties t = number (both tied) (combine os vs) /\
  t_tie_sum t = total (fun ov => if both tied ov then at_top (snd ov) else 0) (combine os vs).
Theorem C97_verdicts_partial os vs t : (forall o v, In (o, v) (combine os vs) -> contested v = true -> distinct o v) ->
  (forall v c, In v vs -> In c v -> NoDup (dkeys (p_rules c))) -> fst (print_report os vs) = Ok t -> verdict_counts os vs t.
Proof. intros D R H. destruct (report_spec os vs t D R H) as (ws & E). destruct (report_loop_spec os vs no_tally t ws D R E) as (I1 & I2 & I3 & I4 & _). cbn [t_losing t_ties t_recovered t_tie_sum no_tally] in *. unfold verdict_counts. rewrite I1, I2, I3, I4. split; [reflexivity|]. split; [reflexivity|]. split; reflexivity. Qed.
Print Assumptions C97_verdicts_partial.
(** Two candidates with the same encoding, or a candidate that prints like the
    original, make a wrong leader count as recovered. *)
Theorem C97_verdicts_refuted : (exists os vs t, fst (print_report os vs) = Ok t /\ t_recovered t = 1 /\ number (both strictly_best) (combine os vs) = 0 /\ number (both led_by_other) (combine os vs) = 1 /\ forall v, In v vs -> NoDup (map p_enc v)) /\
  (exists os vs t, fst (print_report os vs) = Ok t /\ t_recovered t = 1 /\ number (both strictly_best) (combine os vs) = 0 /\ number (both led_by_other) (combine os vs) = 1 /\ forall o v c, In (o, v) (combine os vs) -> In c v -> (p_text c = po_text o <-> p_enc c = po_enc o)).
Proof. split.
  - exists [mkPO 1 7], [[mkP 2 7 false (1#2) []; mkP 1 7 false (1#3) []]]. eexists. split; [vm_compute; reflexivity|]. split; [reflexivity|]. split; [reflexivity|]. split; [reflexivity|]. intros v [<-|[]]. cbn. repeat constructor; cbn; lia.
  - exists [mkPO 1 7], [[mkP 2 8 false (1#2) []; mkP 2 8 false (1#3) []; mkP 1 7 false (1#4) []]]. eexists. split; [vm_compute; reflexivity|]. split; [reflexivity|]. split; [reflexivity|]. split; [reflexivity|]. intros o v c [E|[]] H. injection E as <- <-. cbn [In] in H. destruct H as [<-|[<-|[<-|[]]]]; cbn; lia. Qed.
Print Assumptions C97_verdicts_refuted.
Example C97_example : exists t, fst (print_report ex_os ex_vs) = Ok t /\ verdict_counts ex_os ex_vs t /\ t_recovered t = 1 /\ t_tie_sum t = 2.
Proof. eexists. split; [vm_compute; reflexivity|]. split; [|split; reflexivity]. apply C97_verdicts_partial; [exact ex_distinct|exact ex_rules|vm_compute; reflexivity]. Qed.

(** ** C98 *)
Theorem C98_depths os vs t i : (forall o v, In (o, v) (combine os vs) -> contested v = true -> distinct o v) ->
  (forall v c, In v vs -> In c v -> NoDup (dkeys (p_rules c))) -> fst (print_report os vs) = Ok t ->
  match dget (t_depths t) i with Some n => n | None => 0 end = number (both (fun o v => match ahead o [] v with Some j => i =? j | None => false end)) (combine os vs).
Proof. intros D R H. destruct (report_spec os vs t D R H) as (ws & E). destruct (report_loop_spec os vs no_tally t ws D R E) as (_ & _ & _ & _ & _ & I6). exact (I6 i). Qed.
Print Assumptions C98_depths.
Example C98_example : ahead ex_o1 [] ex_v1 = Some 2 /\ ahead ex_o2 [] ex_v2 = Some 0 /\ exists t, fst (print_report ex_os ex_vs) = Ok t /\ t_depths t = [(2, 1); (0, 2)].
Proof. split; [reflexivity|]. split; [reflexivity|]. eexists. vm_compute. split; reflexivity. Qed.

(** Repeated encodings too, in terms of the candidates as the report leaves them: every
    candidate with the original's encoding counts, all at the place of the first one. *)
Definition depth_of (i : Z) (ow : porig * list pcand) : Z :=
  if contested (snd ow) && match position (fst ow) (snd ow) with Some j => i =? j | None => false end then number (is (fst ow)) (snd ow) else 0.
Lemma depth_after o w i d : forall D, cell (depth_loop o w false d D) i = cell D i + (if i =? d then number (is o) w else 0).
Proof. induction w as [|c w IH]; intros D; [cbn; destruct (i =? d); lia|]. cbn [depth_loop]. rewrite number_cons. unfold is at 1. destruct (p_enc c =? po_enc o); rewrite IH; [rewrite bump_cell|]; cbn [b2z]; destruct (i =? d); lia. Qed.
Lemma depth_all o w i : forall d D, cell (depth_loop o w true d D) i = cell D i + match position o w with Some j => if i =? d + j then number (is o) w else 0 | None => 0 end.
Proof. induction w as [|c w IH]; intros d D; [cbn; lia|]. cbn [depth_loop position]. rewrite number_cons. unfold is at 1 2. destruct (p_enc c =? po_enc o).
  - rewrite depth_after, bump_cell, Z.add_0_r. cbn [b2z]. destruct (i =? d); lia.
  - rewrite IH. cbn [b2z]. destruct (position o w) as [j|]; cbn [option_map]; [|lia]. replace (d + 1 + j) with (d + (1 + j)) by lia. destruct (i =? d + (1 + j)); lia. Qed.
Lemma report_one_depths t o v i : cell (t_depths (fst (report_one t o v))) i = cell (t_depths t) i + depth_of i (o, sorted_if v).
Proof. unfold depth_of. cbn [fst snd]. unfold sorted_if. destruct (contested v) eqn:C; [|rewrite C, report_one_other by exact C; cbn; lia]. destruct (two_sorted v C) as (c1 & c2 & w & E). unfold report_one, contested in *. rewrite C, E.
  cbn [List.length Nat.ltb Nat.leb andb].
  assert (X : cell (depth_loop o (c1 :: c2 :: w) true 0 (t_depths t)) i = cell (t_depths t) i + (if match position o (c1 :: c2 :: w) with Some j => i =? j | None => false end then number (is o) (c1 :: c2 :: w) else 0))
    by (rewrite depth_all; destruct (position o (c1 :: c2 :: w)); reflexivity).
  destruct (negb (p_text c1 =? po_text o) && negb (p_enc c1 =? p_enc c2)); [|destruct (Qeq_bool (p_score c1) (p_score c2) && negb (p_text c1 =? p_text c2))]; cbn [fst t_depths]; exact X. Qed.
Lemma report_loop_depths i os : forall vs t t' ws, report_loop t os vs = (Ok t', ws) -> cell (t_depths t') i = cell (t_depths t) i + total (depth_of i) (combine os ws).
Proof. induction os as [|o os IH]; intros vs t t' ws E.
  - cbn [report_loop] in E. assert (t' = t) as -> by (destruct vs; congruence). cbn; lia.
  - destruct vs as [|v vs]; [discriminate|]. cbn [report_loop] in E. pose proof (report_one_depths t o v i) as Y. destruct (report_one_sums t o v) as (t1 & E1 & _). rewrite E1 in *. destruct (report_loop t1 os vs) as [r ws'] eqn:E2. injection E as -> <-. specialize (IH vs t1 t' ws' E2). cbn [combine total fold_right fst] in *. unfold total in IH. unfold sorted_if in Y. lia. Qed.
Theorem C98_repeated os vs t i : fst (print_report os vs) = Ok t ->
  match dget (t_depths t) i with Some n => n | None => 0 end = total (depth_of i) (combine os (snd (print_report os vs))).
Proof. intros H. unfold print_report in *. destruct (report_loop no_tally os vs) as [[t1|e] ws] eqn:E; [|discriminate]. cbn [fst snd bind] in *. destruct (t_errors t1 =? 0); [discriminate|]. injection H as <-. exact (report_loop_depths i os vs no_tally t1 ws E). Qed.
Print Assumptions C98_repeated.
Example C98_example_repeated : exists t, fst (print_report [ex_o1] [[mkP 71 2 false 1 []; mkP (po_enc ex_o1) 1 false 1 []; mkP 72 3 false (1 # 2) []; mkP (po_enc ex_o1) 1 false (1 # 4) []]]) = Ok t /\ t_depths t = [(1, 2)].
Proof. eexists. vm_compute. split; reflexivity. Qed.

(** ** C99 *)
Theorem C99_exactly_partial os vs : let e := number (fun ov => contested (snd ov)) (combine os vs) in
  ((exists t, fst (print_report os vs) = Ok t) <-> (length os <= length vs)%nat /\ 0 < e) /\
  (fst (print_report os vs) = Err IndexError <-> (length vs < length os)%nat) /\
  (fst (print_report os vs) = Err ZeroDivisionError <-> (length os <= length vs)%nat /\ e = 0).
Proof. cbv zeta. destruct (print_report_cases os vs) as (C1 & C2 & C3 & _). assert (N : 0 <= number (fun ov : porig * list pcand => contested (snd ov)) (combine os vs)) by (unfold number; lia).
  destruct (Nat.lt_ge_cases (length vs) (length os)) as [L|L].
  - rewrite (C1 L). split; [|split]; split; intros H; try discriminate; try lia; try reflexivity. destruct H; discriminate.
  - destruct (Z.eq_dec (number (fun ov : porig * list pcand => contested (snd ov)) (combine os vs)) 0) as [Z0|Z0].
    + rewrite (C2 L Z0). split; [|split]; split; intros H; try discriminate; try lia; try reflexivity. destruct H; discriminate.
    + destruct (C3 L Z0) as (t & -> & _). split; [|split]; split; intros H; try discriminate; try lia. exists t. reflexivity. Qed.
Print Assumptions C99_exactly_partial.
Theorem C99_returns_refuted : exists os vs, length os = length vs /\ (forall v, In v vs -> v <> []) /\ fst (print_report os vs) = Err ZeroDivisionError.
Proof. exists [ex_o3], [ex_v3]. split; [reflexivity|]. split; [intros v [<-|[]]; discriminate|reflexivity]. Qed.
Print Assumptions C99_returns_refuted.
Example C99_example : fst (print_report [ex_o3; ex_o1] [ex_v3]) = Err IndexError /\ exists t, fst (print_report [ex_o3; ex_o1] [ex_v3; ex_v1]) = Ok t.
Proof. split; [reflexivity|]. eexists. vm_compute. reflexivity. Qed.

(** ** C100 *)
Lemma best_first_short v : contested v = false -> best_first v v.
Proof. unfold contested, best_first. intros H. split; [apply Permutation_refl|]. split; [|reflexivity]. destruct v as [|c [|d v]]; [constructor|repeat constructor|cbn in H; lia]. Qed.
Lemma nth_error_first {A} (l : list A) : forall n i, (i < n)%nat -> nth_error (firstn n l) i = nth_error l i.
Proof. induction l as [|a l IH]; intros n i H; [rewrite firstn_nil; reflexivity|]. destruct n as [|n]; [lia|]. destruct i as [|i]; [reflexivity|]. cbn [firstn nth_error]. apply IH. lia. Qed.
Theorem C100_reorders os vs : (length os <= length vs)%nat -> let ws := snd (print_report os vs) in
  length ws = length vs /\ (forall i v, (i < length os)%nat -> nth_error vs i = Some v -> exists w, nth_error ws i = Some w /\ best_first v w) /\
  (forall i, (length os <= i)%nat -> nth_error ws i = nth_error vs i).
Proof. intros L. cbv zeta. destruct (print_report_cases os vs) as (_ & _ & _ & C4). rewrite (C4 L). assert (Lf : length (map sorted_if (firstn (length os) vs)) = length os) by (rewrite map_length, firstn_length; lia). split; [|split].
  - rewrite app_length, Lf, skipn_length. lia.
  - intros i v Hi Hv. exists (sorted_if v). split; [|unfold sorted_if; destruct (contested v) eqn:C; [apply sort_best_spec|apply best_first_short, C]]. rewrite nth_error_app1 by lia. rewrite nth_error_map, nth_error_first by exact Hi. rewrite Hv. reflexivity.
  - intros i Hi. rewrite nth_error_app2 by lia. rewrite Lf. rewrite <- (firstn_skipn (length os) vs) at 2. rewrite nth_error_app2 by (rewrite firstn_length; lia). rewrite firstn_length. f_equal. lia. Qed.
Print Assumptions C100_reorders.
(** A second report of the same program reads the same. *)
Theorem C100_again v w : best_first v w -> sort_best w = w.
Proof. intros (_ & S & _). apply sort_best_id, S. Qed.
Print Assumptions C100_again.
Example C100_example : map (map p_enc) (snd (print_report ex_os ex_vs)) = [[40; 20; 30; 10]; [50; 60]; [70]; [80; 81; 82]].
Proof. reflexivity. Qed.

(** ** C101 *)
Theorem C101_bad_rules os vs t k : (forall o v, In (o, v) (combine os vs) -> contested v = true -> distinct o v) ->
  (forall v c, In v vs -> In c v -> NoDup (dkeys (p_rules c))) -> fst (print_report os vs) = Ok t ->
  match dget (t_bad t) k with Some n => n | None => 0 end = number (both (fun o v => led_by_other o v && prefers k o v)) (combine os vs).
Proof. intros D R H. destruct (report_spec os vs t D R H) as (ws & E). destruct (report_loop_spec os vs no_tally t ws D R E) as (_ & _ & _ & _ & I5 & _). exact (I5 k). Qed.
Print Assumptions C101_bad_rules.
Example C101_example : prefers 0 ex_o1 ex_v1 = true /\ prefers 2 ex_o1 ex_v1 = false /\ exists t, fst (print_report ex_os ex_vs) = Ok t /\ t_bad t = [(0, 1)].
Proof. split; [reflexivity|]. split; [reflexivity|]. eexists. vm_compute. split; reflexivity. Qed.

(** ** C102 *)
Lemma report_on_events e os st : fst (report_on e os st) = fst st ++ [e].
Proof. unfold report_on. destruct st as [es p]. destruct (print_report os (dict_to_list p)). reflexivity. Qed.
Lemma report_on_ok e os es p es' q : report_on e os (es, p) = (es', Ok q) -> es' = es ++ [e] /\ exists t, fst (print_report os (dict_to_list p)) = Ok t.
Proof. unfold report_on. destruct (print_report os (dict_to_list p)) as [r vs]. intros E. injection E as <- E. split; [reflexivity|]. destruct r as [t|]; [exists t; reflexivity|discriminate]. Qed.
Definition passes (n m : Z) : list event := map Pass_report (zrange n m).
Lemma passes_snoc n m : n <= m -> passes n (m + 1) = passes n m ++ [Pass_report m].
Proof. intros H. unfold passes. rewrite (zrange_app n m (m + 1)) by lia. rewrite map_app. f_equal. unfold zrange. replace (Z.to_nat (m + 1 - m)) with 1%nat by lia. cbn [seq map]. rewrite Z.add_0_r. reflexivity. Qed.
Lemma recovery_loop_ok rec os fuel : forall n es p es' p' m, recovery_loop rec os fuel n (es, p) = (es', Ok (p', m)) -> n <= m /\ es' = es ++ passes n (m + 1).
Proof. induction fuel as [|fuel IH]; intros n es p es' p' m E; [discriminate|]. cbn [recovery_loop fst snd] in E. destruct (rec n p) as [p1|] eqn:E1; [|discriminate]. destruct (report_on (Pass_report n) os (es, p1)) as [es1 [p2|]] eqn:E2; [|discriminate].
  apply report_on_ok in E2. destruct E2 as [-> _]. destruct (remove_all (fun c => Ok (p_score c)) p2) as [[p3 stable]|]; [|discriminate]. destruct stable.
  - injection E as <- <- <-. split; [lia|]. rewrite passes_snoc by lia. unfold passes. rewrite zrange_nil by lia. reflexivity.
  - apply IH in E. destruct E as [L ->]. split; [lia|]. rewrite <- app_assoc. f_equal. unfold passes. rewrite (zrange_app n (n + 1) (m + 1)) by lia. rewrite map_app. f_equal. unfold zrange. replace (Z.to_nat (n + 1 - n)) with 1%nat by lia. cbn [seq map]. rewrite Z.add_0_r. reflexivity. Qed.
Lemma recovery_loop_no_final rec os fuel : forall n es p, ~ In Final_solution es -> ~ In Final_solution (fst (recovery_loop rec os fuel n (es, p))).
Proof. induction fuel as [|fuel IH]; intros n es p H; [exact H|]. cbn [recovery_loop fst snd]. destruct (rec n p) as [p1|]; [|exact H]. pose proof (report_on_events (Pass_report n) os (es, p1)) as X. destruct (report_on (Pass_report n) os (es, p1)) as [es1 r]. cbn [fst] in X. subst es1.
  assert (H1 : ~ In Final_solution (es ++ [Pass_report n])) by (rewrite in_app_iff; intros [K|[K|[]]]; [exact (H K)|discriminate]). destruct r as [p2|]; [|exact H1]. destruct (remove_all (fun c => Ok (p_score c)) p2) as [[p3 [|]]|]; [exact H1| |exact H1]. apply IH, H1. Qed.

(** The files of a complete run, and when the last one appears. *)
Theorem C102_files os cor write rec cont con fuel es r : run_recovery os cor write rec cont con fuel = (es, r) ->
  (r = Ok tt -> exists n, 1 <= n /\ es = [Corrupted_report; Initial_solution] ++ map Pass_report (zrange 1 (n + 3)) ++ [Final_solution]) /\ (In Final_solution es <-> r = Ok tt).
Proof. intros E. unfold run_recovery in E.
  destruct cor as [p0|]; [|injection E as <- <-; split; [discriminate|split; [intros []|discriminate]]].
  destruct (report_on Corrupted_report os ([], p0)) as [es0 r0] eqn:E0. pose proof (report_on_events Corrupted_report os ([], p0)) as X0. rewrite E0 in X0. cbn [fst app] in X0. subst es0.
  destruct r0 as [p1|]; [|injection E as <- <-; split; [discriminate|split; [intros [K|[]]; discriminate|discriminate]]].
  destruct (write p1) as [u|]; [|injection E as <- <-; split; [discriminate|split; [intros [K|[]]; discriminate|discriminate]]].
  cbn [app] in E. assert (N0 : ~ In Final_solution [Corrupted_report; Initial_solution]) by (intros [K|[K|[]]]; discriminate).
  pose proof (recovery_loop_no_final rec os fuel 1 [Corrupted_report; Initial_solution] p1 N0) as X1.
  destruct (recovery_loop rec os fuel 1 ([Corrupted_report; Initial_solution], p1)) as [es1 r1] eqn:E1. cbn [fst] in X1.
  destruct r1 as [[p2 n]|]; [|injection E as <- <-; split; [discriminate|split; [intros K; exfalso; exact (X1 K)|discriminate]]].
  apply recovery_loop_ok in E1. destruct E1 as [Ln E1].
  match type of E with context [report_on ?e os ?s] => pose proof (report_on_events e os s) as X2; destruct (report_on e os s) as [es2 r2] end. cbn [fst] in X2.
  assert (N2 : ~ In Final_solution es2) by (rewrite X2, in_app_iff; intros [K|[K|[]]]; [exact (X1 K)|discriminate]).
  destruct r2 as [p3|]; [|injection E as <- <-; split; [discriminate|split; [intros K; exfalso; exact (N2 K)|discriminate]]].
  destruct (con p3) as [p4|]; [|injection E as <- <-; split; [discriminate|split; [intros K; exfalso; exact (N2 K)|discriminate]]].
  match type of E with context [report_on ?e os ?s] => pose proof (report_on_events e os s) as X3; destruct (report_on e os s) as [es3 r3] end. cbn [fst] in X3.
  assert (N3 : ~ In Final_solution es3) by (rewrite X3, in_app_iff; intros [K|[K|[]]]; [exact (N2 K)|discriminate]).
  destruct r3 as [p5|]; [|injection E as <- <-; split; [discriminate|split; [intros K; exfalso; exact (N3 K)|discriminate]]].
  destruct (write p5) as [u5|]; [|injection E as <- <-; split; [discriminate|split; [intros K; exfalso; exact (N3 K)|discriminate]]].
  injection E as <- <-. split; [|split; [reflexivity|intros _; apply in_or_app; right; left; reflexivity]]. intros _. exists n. split; [exact Ln|]. rewrite X3, X2, E1. fold (passes 1 (n + 3)). replace (n + 3) with (n + 1 + 1 + 1) by lia. rewrite (passes_snoc 1 (n + 1 + 1)), (passes_snoc 1 (n + 1)) by lia.
  rewrite <- !app_assoc. replace (n + 1 + 1) with (n + 2) by lia. reflexivity. Qed.
Print Assumptions C102_files.

Lemma contested_in os vs : 0 < number (fun ov : porig * list pcand => contested (snd ov)) (combine os vs) -> exists v, In v vs /\ (1 < length v)%nat.
Proof. unfold number. intros H. destruct (filter (fun ov => contested (snd ov)) (combine os vs)) as [|[o v] l] eqn:E; [cbn in H; lia|]. assert (I : In (o, v) ((o, v) :: l)) by (left; reflexivity). rewrite <- E in I. apply filter_In in I. destruct I as [I C]. exists v. split; [eapply in_combine_r; exact I|]. unfold contested in C. cbn [snd] in C. lia. Qed.
Lemma dict_list_in {A} (p : dict A) v : In v (dict_to_list p) -> exists k, dget p k = Some v.
Proof. unfold dict_to_list. rewrite in_flat_map. intros (k & _ & H). destruct (dget p k) eqn:E; [|destruct H]. destruct H as [<-|[]]. eauto. Qed.
(** A run that returns still had a choice of candidates left after the constraint
    step: fully recovered programs never get their final solution. *)
Theorem C102_only_unsolved os cor write rec cont con fuel es : run_recovery os cor write rec cont con fuel = (es, Ok tt) ->
  exists p3 p4 a v, con p3 = Ok p4 /\ dget p4 a = Some v /\ (1 < length v)%nat.
Proof. intros E. unfold run_recovery in E. destruct cor as [p0|]; [|discriminate]. destruct (report_on Corrupted_report os ([], p0)) as [es0 [p1|]]; [|discriminate]. destruct (write p1); [|discriminate].
  destruct (recovery_loop rec os fuel 1 (es0 ++ [Initial_solution], p1)) as [es1 [[p2 n]|]]; [|discriminate]. match type of E with context [report_on ?e os ?s] => destruct (report_on e os s) as [es2 [p3|]] end; [|discriminate].
  destruct (con p3) as [p4|] eqn:E4; [|discriminate]. destruct (report_on (Pass_report (n + 2)) os (es2, p4)) as [es3 [p5|]] eqn:E5; [|discriminate]. apply report_on_ok in E5. destruct E5 as [_ E5].
  destruct (C99_exactly_partial os (dict_to_list p4)) as (C & _ & _). apply C in E5. destruct E5 as [_ E5]. apply contested_in in E5. destruct E5 as (v & I & Lv). apply dict_list_in in I. destruct I as [adr I]. exists p3, p4, adr, v. auto. Qed.
Print Assumptions C102_only_unsolved.
(** The right candidate gets score 1 and the other one 0: the first pass leaves
    the original alone, and the next report raises. *)
Definition ex_rec (n : Z) (p : dict (list pcand)) : result (dict (list pcand)) := Ok p.
Theorem C102_finishes_refuted : exists os cor rec es, (forall n p, rec n p = Ok p) /\
  run_recovery os (Ok cor) (fun _ => Ok tt) rec (fun c => c) (fun p => Ok p) 5 = (es, Err ZeroDivisionError) /\ ~ In Final_solution es.
Proof. exists [ex_o2], [(0, [mkP 50 150 false (1#1) []; mkP 60 160 false (0#1) []])], ex_rec, [Corrupted_report; Initial_solution; Pass_report 1; Pass_report 2]. split; [reflexivity|]. split; [vm_compute; reflexivity|]. cbn. intuition discriminate. Qed.
Print Assumptions C102_finishes_refuted.
Example C102_example : fst (run_recovery [ex_o2] (Ok [(0, [mkP 50 150 false (1#2) []; mkP 60 160 false (1#3) []; mkP 61 161 false (0#1) []])]) (fun _ => Ok tt) ex_rec (fun c => c) (fun p => Ok p) 5)
   = [Corrupted_report; Initial_solution; Pass_report 1; Pass_report 2; Pass_report 3; Pass_report 4; Final_solution].
Proof. vm_compute. reflexivity. Qed.
