(** C137: the final solution file of a recovery run. *)
From Verif Require Import ListLemmas InterleaveSpec FlipModel FlipSpec PacketModel PacketSpec PacketProps.
From Verif Require Import IoModel IoSpec IoProofs IoProps ReportModel ReportSpec ReportProofs ReportProps RecModel RecProofs RemoveProofs InitialModel InitialProps RunModel.
From Coq Require Import ZifyBool ZifyNat Permutation Sorted.
Notation inst := IoModel.inst.
Notation cprog := (dict (list pcand)).

(** A step that adds no candidate and keeps the addresses. *)
Definition fewer (p q : cprog) : Prop :=
  dkeys q = dkeys p /\ forall a w, dget q a = Some w -> exists v, dget p a = Some v /\ incl (map p_enc w) (map p_enc v).

Lemma fewer_refl p : fewer p p.
Proof. split; [reflexivity|]. intros a w H. exists w. split; [exact H|apply incl_refl]. Qed.
Lemma fewer_trans p q r : fewer p q -> fewer q r -> fewer p r.
Proof. intros [K1 H1] [K2 H2]. split; [congruence|]. intros a w H. destruct (H2 a w H) as (v & Hv & I). destruct (H1 a v Hv) as (u & Hu & J). exists u. split; [exact Hu|]. eapply incl_tran; eassumption. Qed.

(** ** The writer is the one of run_recovery *)
Lemma run_files_events text originals cor rec cont con fuel :
  run_recovery (map (original text) originals) cor (fun p => rmap (fun _ => tt) (save originals p)) rec cont con fuel =
  (fst (run_files text originals cor rec cont con fuel), rmap (fun _ => tt) (snd (run_files text originals cor rec cont con fuel))).
Proof. unfold run_recovery, run_files. set (os := map (original text) originals). destruct cor as [p0|e]; [|reflexivity]. destruct (report_on Corrupted_report os ([], p0)) as [es [p1|e]]; [|reflexivity]. destruct (save originals p1) as [f1|e]; [|reflexivity]. cbn [rmap bind].
  destruct (recovery_loop rec os fuel 1 (es ++ [Initial_solution], p1)) as [es2 [[p2 n]|e]]; [|reflexivity].
  destruct (report_on (Pass_report (n + 1)) os (es2, map (fun kv : Z * list pcand => (fst kv, map cont (snd kv))) p2)) as [es3 [p3|e]]; [|reflexivity]. destruct (con p3) as [p4|e]; [|reflexivity].
  destruct (report_on (Pass_report (n + 2)) os (es3, p4)) as [es4 [p5|e]]; [|reflexivity]. destruct (save originals p5) as [f2|e]; reflexivity. Qed.

(** ** A report *)
Lemma dict_list_nth {A} (p : dict A) n v : nth_error (dict_to_list p) n = Some v <-> exists k, nth_error (sort_by (fun k => k) (dkeys p)) n = Some k /\ dget p k = Some v.
Proof. unfold dict_to_list. assert (H : forall k, In k (sort_by (fun k => k) (dkeys p)) -> In k (dkeys p)) by (intros k; apply Permutation_in, sort_by_perm). revert n. induction (sort_by (fun k => k) (dkeys p)) as [|k ks IH]; intros n.
  - cbn [flat_map]. split; [destruct n; discriminate|]. intros (k & X & _). destruct n; discriminate.
  - cbn [flat_map]. destruct (proj1 (dget_some_in p k) (H k (or_introl eq_refl))) as (u & E). rewrite E. cbn [app]. destruct n as [|n]; cbn [nth_error].
    + split; [intros X; injection X as <-; exists k; split; [reflexivity|exact E]|]. intros (j & X & Y). injection X as <-. congruence.
    + apply IH. intros j Hj. apply H. right. exact Hj. Qed.
Lemma put_keys l : forall p : cprog, (forall k v, In (k, v) l -> In k (dkeys p)) -> dkeys (fold_left (fun p kv => dset p (fst kv) (snd kv)) l p) = dkeys p.
Proof. induction l as [|[k v] l IH]; intros p H; [reflexivity|]. cbn [fold_left fst snd]. assert (K : dkeys (dset p k v) = dkeys p). { rewrite dkeys_dset. assert (X := H k v (or_introl eq_refl)). apply dget_some_in in X. destruct X as (u & X). unfold dmem. rewrite X. reflexivity. }
  rewrite IH; [exact K|]. intros j u Hj. rewrite K. apply (H j u). right. exact Hj. Qed.
Lemma put_get l : forall (p : cprog) k v, NoDup (map fst l) -> In (k, v) l -> dget (fold_left (fun p kv => dset p (fst kv) (snd kv)) l p) k = Some v.
Proof. assert (O : forall l (p : cprog) k, ~ In k (map fst l) -> dget (fold_left (fun p kv => dset p (fst kv) (snd kv)) l p) k = dget p k).
  { induction l0 as [|[j u] l0 IH]; intros p k H; [reflexivity|]. cbn [fold_left fst snd map In] in *. rewrite IH by tauto. apply dget_dset_other. intros ->. tauto. }
  induction l as [|[j u] l IH]; intros p k v N I; [destruct I|]. destruct I as [E|H]; cbn [fold_left fst snd map] in *; inversion N as [|? ? N1 N2]; subst.
  - injection E as -> ->. rewrite O by exact N1. apply dget_dset_same.
  - apply IH; assumption. Qed.
Lemma report_on_lists e os es p es' q : NoDup (dkeys p) -> report_on e os (es, p) = (es', Ok q) ->
  dkeys q = dkeys p /\ (length os <= length p)%nat /\ forall a v, dget p a = Some v -> exists w, dget q a = Some w /\ Permutation v w /\ (length os = length p -> best_first v w).
Proof. intros N E. unfold report_on in E. destruct (print_report os (dict_to_list p)) as [r vs] eqn:Ep. injection E as _ E. destruct r as [t|]; [|discriminate]. cbn [rmap bind] in E. injection E as <-.
  assert (L : (length os <= length (dict_to_list p))%nat). { destruct (C99_exactly_partial os (dict_to_list p)) as [[X _] _]. apply X. exists t. rewrite Ep. reflexivity. }
  pose proof (C100_reorders os (dict_to_list p) L) as R. rewrite Ep in R. cbn [snd] in R. cbv zeta in R. destruct R as (Lw & Rb & Rr). rewrite dict_to_list_length in *.
  set (ks := sort_by (fun k => k) (dkeys p)) in *. assert (Nk : NoDup ks) by (eapply Permutation_NoDup; [apply Permutation_sym, sort_by_perm|exact N]). assert (Lk : length ks = length p) by (unfold ks; rewrite (Permutation_length (sort_by_perm (fun k => k) (dkeys p))); unfold dkeys; apply map_length).
  assert (Mf : map fst (combine ks vs) = ks). { clear - Lk Lw. clearbody ks. revert vs Lk Lw. generalize (length p). clear p. induction ks as [|k ks IH]; intros m [|v vs] A B; cbn [length combine map] in *; try reflexivity; try lia. cbn [fst]. f_equal. apply (IH (pred m)); lia. }
  assert (Ik : forall k, In k ks <-> In k (dkeys p)) by (intros k; split; apply Permutation_in; [|apply Permutation_sym]; apply sort_by_perm).
  split. { unfold put_lists. fold ks. apply put_keys. intros k v H. apply Ik. rewrite <- Mf. apply (in_map fst) in H. exact H. }
  split; [exact L|]. intros a v G. assert (Ha : In a ks) by (apply Ik, dget_some_in; eauto). apply In_nth_error in Ha. destruct Ha as (n & Hn).
  assert (Hd : nth_error (dict_to_list p) n = Some v) by (apply dict_list_nth; exists a; split; [exact Hn|exact G]). assert (Ln : (n < length ks)%nat) by (apply nth_error_Some; rewrite Hn; discriminate).
  assert (Hw : exists w, nth_error vs n = Some w /\ Permutation v w /\ (length os = length p -> best_first v w)).
  { destruct (le_lt_dec (length os) n) as [Le|Lt]; [exists v; split; [rewrite (Rr n Le); exact Hd|]; split; [apply Permutation_refl|]; intros X; lia|]. destruct (Rb n v Lt Hd) as (w & A & B). exists w. split; [exact A|]. split; [apply B|]. intros _. exact B. }
  destruct Hw as (w & Hw & Hp & Hb). exists w. split; [|split; [exact Hp|exact Hb]]. unfold put_lists. fold ks. apply put_get; [rewrite Mf; exact Nk|].
  clear - Hn Hw. clearbody ks. revert n vs Hn Hw. induction ks as [|k ks IH]; intros n [|u vs] Hn Hw; destruct n as [|n]; cbn [nth_error combine] in *; try discriminate; [injection Hn as ->; injection Hw as ->; left; reflexivity|]. right. eapply IH; eassumption. Qed.
Lemma report_fewer e os es p es' q : NoDup (dkeys p) -> report_on e os (es, p) = (es', Ok q) -> fewer p q.
Proof. intros N E. destruct (report_on_lists e os es p es' q N E) as (K & _ & H). split; [exact K|]. intros a w G. assert (Ha : In a (dkeys p)) by (rewrite <- K; apply dget_some_in; eauto). apply dget_some_in in Ha. destruct Ha as (v & Gv). destruct (H a v Gv) as (w' & Gw & P & _). assert (w' = w) as -> by congruence. exists v. split; [exact Gv|]. intros x Hx. eapply Permutation_in; [apply Permutation_map, Permutation_sym, P|exact Hx]. Qed.
Lemma shrunk_fewer (p q : cprog) : shrunk p q -> fewer p q.
Proof. intros S. split; [unfold dkeys; induction S as [|x y p q [E _] S IH]; [reflexivity|]; cbn [map]; f_equal; assumption|].
  induction S as [|[k v] [k' v'] p q [E Su] S IH]; intros a w G; [discriminate|]. cbn [fst snd] in *. subst k'. cbn [dget] in *. destruct (a =? k); [injection G as <-; exists v; split; [reflexivity|]; intros x Hx; apply in_map_iff in Hx; destruct Hx as (c & <- & Hc); apply in_map; eapply RemoveProofs.subseq_in; eassumption|]. apply IH, G. Qed.
Lemma loop_fewer rec os fuel : (forall n p q, rec n p = Ok q -> fewer p q) -> forall n es p es' q m, NoDup (dkeys p) -> recovery_loop rec os fuel n (es, p) = (es', Ok (q, m)) -> fewer p q.
Proof. intros R. induction fuel as [|fuel IH]; intros n es p es' q m N E; [discriminate|]. cbn [recovery_loop fst snd] in E. destruct (rec n p) as [p1|] eqn:E1; [|discriminate]. pose proof (R n p p1 E1) as F1. assert (N1 : NoDup (dkeys p1)) by (rewrite (proj1 F1); exact N).
  destruct (report_on (Pass_report n) os (es, p1)) as [es2 [p2|]] eqn:E2; [|discriminate]. pose proof (report_fewer _ _ _ _ _ _ N1 E2) as F2. assert (N2 : NoDup (dkeys p2)) by (rewrite (proj1 F2); exact N1).
  destruct (remove_all_shape (fun c : pcand => Ok (p_score c)) p2) as [(p3 & st & E3 & S3 & _)|[(a & c & e & _ & X & _)|(kv & c & e & _ & _ & X & _)]]; [|discriminate|discriminate]. rewrite E3 in E. pose proof (shrunk_fewer _ _ S3) as F3. assert (N3 : NoDup (dkeys p3)) by (rewrite (proj1 F3); exact N2).
  assert (F : fewer p p3) by (eapply fewer_trans; [exact F1|]; eapply fewer_trans; eassumption). destruct st; [injection E as _ <- _; exact F|]. eapply fewer_trans; [exact F|]. eapply IH; eassumption. Qed.
Lemma continuous_fewer cont (p : cprog) : (forall c, p_enc (cont c) = p_enc c) -> fewer p (map (fun kv => (fst kv, map cont (snd kv))) p).
Proof. intros C. split; [unfold dkeys; rewrite map_map; reflexivity|]. intros a w G. rewrite dget_map_values in G. destruct (dget p a) as [v|]; [|discriminate]. cbn [option_map] in G. injection G as <-. exists v. split; [reflexivity|]. rewrite map_map. erewrite map_ext; [apply incl_refl|]. exact C. Qed.

(** ** What is in a saved file *)
Lemma save_back originals p file : NoDup (map address originals) -> NoDup (dkeys p) -> save originals p = Ok file ->
  exists original program, read file = Ok (original, program) /\ dkeys original = dkeys p /\ dkeys program = dkeys p /\
  forall a w, dget p a = Some w -> exists i pre c post, In i originals /\ address i = a /\ dget original a = Some [i] /\ w = pre ++ c :: post /\ p_enc c = encoding i /\ (forall d, In d pre -> p_enc d <> encoding i) /\
    dget program a = Some (map (fun d => (p_enc d, a)) pre ++ [i]).
Proof. intros Na Np E. unfold save, write_binary_list in E. destruct (write_binary (list_to_dict originals) (to_write p)) as [f [u|]] eqn:Ew; [|discriminate]. injection E as ->. destruct u.
  assert (K : dkeys (to_write p) = dkeys p) by (unfold to_write, dkeys; rewrite map_map; reflexivity).
  assert (WL : Forall (writable (list_to_dict originals)) (to_write p) /\ Z.of_nat (length (to_write p)) < 2 ^ 32).
  { pose proof Ew as E'. unfold write_binary in E'. apply before_ok in E'. destruct E' as (b1 & b2 & u1 & P1 & P2 & _). apply before_ok in P2. destruct P2 as (b3 & b4 & u2 & P3 & P4 & _). split; [eapply write_entries_inv; exact P4|]. destruct (put_cases 4 (Z.of_nat (length (to_write p)))) as [[X _]|[_ X]]; [change (8 * Z.of_nat 4) with 32 in X; lia|]. rewrite X in P3. discriminate. }
  destruct WL as [W Lp]. destruct (C45_round_trip _ _ ltac:(rewrite K; exact Np) W Lp) as (file' & original & program & E2 & Rd & L1 & L2 & Back). rewrite Ew in E2. injection E2 as <-.
  exists original, program. split; [exact Rd|].
  assert (K1 : dkeys original = dkeys p). { rewrite <- K. apply nth_keys; [exact L1|]. intros n kv Hn. destruct (Back n kv Hn) as (kvo & kvp & A & _ & (pre & o' & post & _ & _ & ->)). eexists. split; [exact A|reflexivity]. }
  assert (K2 : dkeys program = dkeys p). { rewrite <- K. apply nth_keys; [exact L2|]. intros n kv Hn. destruct (Back n kv Hn) as (kvo & kvp & _ & A & (pre & o' & post & _ & -> & _)). eexists. split; [exact A|reflexivity]. }
  split; [exact K1|]. split; [exact K2|]. intros a w G.
  assert (Hp : In (a, map (fun c => (p_enc c, a)) w) (to_write p)) by (unfold to_write; apply in_map_iff; exists (a, w); split; [reflexivity|apply dget_in, G]).
  apply In_nth_error in Hp. destruct Hp as (n & Hn). destruct (Back n _ Hn) as (kvo & kvp & Ao & Apr & (pre & o' & post & (o & others & Go & Sp & Eo & Pre) & -> & ->)). cbn [fst snd] in *.
  rewrite list_to_dict_single in Go by exact Na. apply dget_in, in_map_iff in Go. destruct Go as (i & Ei & Hi). injection Ei as Ea <- <-. subst a. exists i.
  apply map_eq_app in Sp. destruct Sp as (pre0 & w2 & -> & <- & Sp). destruct w2 as [|c post0]; [discriminate|]. cbn [map] in Sp. injection Sp as <- <-.
  exists pre0, c, post0. split; [exact Hi|]. split; [reflexivity|]. unfold encoding at 1 in Eo. cbn [fst] in Eo.
  split. { rewrite (dget_nodup_in original (address i) [(encoding i, address i)]); [destruct i; reflexivity|rewrite K1; exact Np|]. apply nth_error_In in Ao. change (encoding (p_enc c, address i)) with (p_enc c) in Ao. rewrite Eo in Ao. exact Ao. }
  split; [reflexivity|]. split; [exact Eo|]. split. { intros d Hd. apply (Pre (p_enc d, address i)). apply in_map_iff. exists d. auto. }
  apply nth_error_In in Apr. rewrite map_app, map_map in Apr. cbn [map] in Apr. change (encoding (p_enc c, address i)) with (p_enc c) in Apr. rewrite Eo in Apr. apply dget_nodup_in; [rewrite K2; exact Np|]. replace [i] with [(encoding i, address i)] by (destruct i; reflexivity). exact Apr. Qed.

(** ** The final solution *)
Theorem C137_final_solution : forall text originals cor rec cont con fuel es initial final,
  NoDup (map address originals) -> (forall p, cor = Ok p -> NoDup (dkeys p)) ->
  (forall n p q, rec n p = Ok q -> fewer p q) -> (forall c, p_enc (cont c) = p_enc c) -> (forall p q, con p = Ok q -> fewer p q) ->
  run_files text originals cor rec cont con fuel = (es, Ok (initial, final)) ->
  exists p0 p3 p4 original program, cor = Ok p0 /\ con p3 = Ok p4 /\ fewer p0 p4 /\ read final = Ok (original, program) /\
    (forall a, In a (dkeys p0) <-> In a (map address originals)) /\ dkeys original = dkeys p0 /\ dkeys program = dkeys p0 /\
    forall i, In i originals -> dget original (address i) = Some [i] /\
      exists v w pre c post, dget p4 (address i) = Some v /\ best_first v w /\ w = pre ++ c :: post /\ p_enc c = encoding i /\ (forall d, In d pre -> p_enc d <> encoding i) /\
        dget program (address i) = Some (map (fun d => (p_enc d, address i)) pre ++ [i]).
Proof. intros text originals cor rec cont con fuel es initial final Na Nc Rf Cf Kf E. unfold run_files in E. set (os := map (original text) originals) in *. destruct cor as [p0|]; [|discriminate]. specialize (Nc p0 eq_refl).
  destruct (report_on Corrupted_report os ([], p0)) as [es1 [p1|]] eqn:E1; [|discriminate]. destruct (save originals p1) as [f1|] eqn:S1; [|discriminate].
  destruct (recovery_loop rec os fuel 1 (es1 ++ [Initial_solution], p1)) as [es2 [[p2 n]|]] eqn:E2; [|discriminate].
  destruct (report_on (Pass_report (n + 1)) os (es2, map (fun kv : Z * list pcand => (fst kv, map cont (snd kv))) p2)) as [es3 [p3|]] eqn:E3; [|discriminate]. destruct (con p3) as [p4|] eqn:E4; [|discriminate].
  destruct (report_on (Pass_report (n + 2)) os (es3, p4)) as [es4 [p5|]] eqn:E5; [|discriminate]. destruct (save originals p5) as [f2|] eqn:S5; [|discriminate]. injection E as _ <- <-.
  pose proof (report_fewer _ _ _ _ _ _ Nc E1) as F1. assert (N1 : NoDup (dkeys p1)) by (rewrite (proj1 F1); exact Nc).
  pose proof (loop_fewer rec os fuel Rf _ _ _ _ _ _ N1 E2) as F2. assert (N2 : NoDup (dkeys p2)) by (rewrite (proj1 F2); exact N1).
  pose proof (continuous_fewer cont p2 Cf) as F2'. set (p2' := map (fun kv : Z * list pcand => (fst kv, map cont (snd kv))) p2) in *. assert (N2' : NoDup (dkeys p2')) by (rewrite (proj1 F2'); exact N2).
  pose proof (report_fewer _ _ _ _ _ _ N2' E3) as F3. assert (N3 : NoDup (dkeys p3)) by (rewrite (proj1 F3); exact N2').
  pose proof (Kf _ _ E4) as F4. assert (N4 : NoDup (dkeys p4)) by (rewrite (proj1 F4); exact N3).
  pose proof (report_fewer _ _ _ _ _ _ N4 E5) as F5. assert (N5 : NoDup (dkeys p5)) by (rewrite (proj1 F5); exact N4).
  assert (F : fewer p0 p4) by (eapply fewer_trans; [exact F1|]; eapply fewer_trans; [exact F2|]; eapply fewer_trans; [exact F2'|]; eapply fewer_trans; [exact F3|exact F4]).
  destruct (save_back originals p5 f2 Na N5 S5) as (og & pg & Rd & K1 & K2 & B). exists p0, p3, p4, og, pg. split; [reflexivity|]. split; [exact E4|]. split; [exact F|]. split; [exact Rd|].
  assert (K5 : dkeys p5 = dkeys p0) by (rewrite (proj1 F5); exact (proj1 F)).
  assert (Sub : incl (dkeys p0) (map address originals)). { intros a Ha. rewrite <- K5 in Ha. apply dget_some_in in Ha. destruct Ha as (w & G). destruct (B a w G) as (i & _ & _ & _ & Hi & <- & _). apply in_map, Hi. }
  destruct (report_on_lists _ _ _ _ _ _ N4 E5) as (_ & Lo & H5).
  assert (Len : length os = length p4). { apply Nat.le_antisymm; [exact Lo|]. unfold os. rewrite map_length. rewrite <- (map_length fst p4), <- (map_length address originals). change (map fst p4) with (dkeys p4). rewrite (proj1 F). apply NoDup_incl_length; assumption. }
  assert (Sup : incl (map address originals) (dkeys p0)). { apply NoDup_length_incl; [exact Nc| |exact Sub]. rewrite map_length. unfold os in Len. rewrite map_length in Len. rewrite Len, <- (map_length fst p4). change (map fst p4) with (dkeys p4). rewrite (proj1 F). lia. }
  split; [intros a; split; [apply Sub|apply Sup]|]. split; [congruence|]. split; [congruence|].
  intros i Hi. assert (Ha : In (address i) (dkeys p4)) by (rewrite (proj1 F); apply Sup, in_map, Hi). apply dget_some_in in Ha. destruct Ha as (v & Gv). destruct (H5 _ _ Gv) as (w & Gw & _ & Bf). destruct (B _ _ Gw) as (j & pre & c & post & Hj & Ej & Go & Ew & Ec & Pre & Gp).
  assert (j = i) as ->. { clear - Na Hi Hj Ej. induction originals as [|x l IH]; [destruct Hi|]. cbn [map] in Na. inversion Na as [|? ? N1 N2]; subst. cbn [In] in *. destruct Hi as [->|Hi], Hj as [->|Hj]; [reflexivity| | |apply IH; assumption]; exfalso; apply N1; [rewrite <- Ej|rewrite Ej]; apply in_map; assumption. }
  split; [exact Go|]. exists v, w, pre, c, post. split; [exact Gv|]. split; [apply Bf, Len|]. auto. Qed.
Print Assumptions C137_final_solution.

(** The same after packet loss: whatever the recovery does, as long as it adds no
    candidates. *)
Theorem C137_packet_loss : forall text order w words lost fns rec cont con fuel es initial final,
  1 <= w <= 32 -> NoDup order -> incl lost order -> lost <> [] -> first_inside order w words lost ->
  NoDup (map address (concat fns)) -> (forall i, In i (concat fns) -> fits32 (encoding i)) ->
  (forall n p q, rec n p = Ok q -> fewer p q) -> (forall c, p_enc (cont c) = p_enc c) -> (forall p q, con p = Ok q -> fewer p q) ->
  packet_run text (Z.of_nat (length order)) w words order lost fns rec cont con fuel = (es, Ok (initial, final)) ->
  initial_solution text (Z.of_nat (length order)) w words order lost fns = Ok (initial, Ok tt) /\
  exists errors original program, predict_corruption (Z.of_nat (length order)) w words order lost = Ok errors /\ read final = Ok (original, program) /\
    forall i, In i (concat fns) -> dget original (address i) = Some [i] /\
      exists l, dget program (address i) = Some (l ++ [i]) /\ forall c, In c l -> address c = address i /\ encoding c <> encoding i /\ same_outside (suspect w errors fns i) (encoding i) (encoding c).
Proof. intros text order w words lost fns rec cont con fuel es initial final Hw No Hl Hne Hf Na He Rf Cf Kf E.
  destruct (corrupts order w words lost fns Hw No Hl Hne Hf Na He) as (errors & p & Ee & Ep & [K L]). pose proof (sorted_nodup fns Na) as Ns.
  unfold packet_run in E. change (fst (functions_to_list fns)) with (sorted_insts fns) in E. rewrite clone_ok in E by (intros i Hi; apply He, sorted_in, Hi). cbn [bind] in E. rewrite to_corrupt_single in E by exact Ns. rewrite Ep in E. cbn [rmap bind] in E.
  split.
  - unfold initial_solution. change (fst (functions_to_list fns)) with (sorted_insts fns). rewrite clone_ok by (intros i Hi; apply He, sorted_in, Hi). cbn [bind]. rewrite to_corrupt_single by exact Ns. rewrite Ep. cbn [bind]. unfold run_files in E. cbv beta iota zeta in E.
    match type of E with context [report_on Corrupted_report ?b ?c] => set (R := report_on Corrupted_report b c) in E; match goal with |- context [report_on Corrupted_report ?b' ?c'] => change (report_on Corrupted_report b' c') with R end end. destruct R as [es1 [p1|]]; [|discriminate]. cbn [snd bind]. unfold save in E at 1.
    destruct (write_binary_list (sorted_insts fns) (to_write p1)) as [f [[]|]]; [|discriminate].
    match type of E with context [recovery_loop ?a ?b ?c ?d ?e] => destruct (recovery_loop a b c d e) as [es2 [[p2 n]|]]; [|discriminate] end.
    match type of E with context [report_on (Pass_report (n + 1)) ?b ?c] => destruct (report_on (Pass_report (n + 1)) b c) as [es3 [p3|]]; [|discriminate] end. destruct (con p3) as [p4|]; [|discriminate].
    match type of E with context [report_on (Pass_report (n + 2)) ?b ?c] => destruct (report_on (Pass_report (n + 2)) b c) as [es4 [p5|]]; [|discriminate] end. destruct (save (sorted_insts fns) p5); [|discriminate]. injection E as _ <- _. reflexivity.
  - set (q := map (fun kv : Z * list PacketModel.inst => (fst kv, map (fresh text) (snd kv))) p) in *. assert (Kq : dkeys q = dkeys p) by (unfold q, dkeys; rewrite map_map; reflexivity).
    destruct (C137_final_solution text (sorted_insts fns) (Ok q) rec cont con fuel es initial final Ns ltac:(intros x X; injection X as <-; rewrite Kq, K; exact Ns) Rf Cf Kf E) as (p0 & p3 & p4 & og & pg & E0 & _ & F & Rd & _ & _ & _ & B). injection E0 as <-.
    exists errors, og, pg. split; [exact Ee|]. split; [exact Rd|]. intros i Hi. destruct (B i (proj2 (sorted_in fns i) Hi)) as (Go & v & w' & pre & c & post & Gv & Bf & Ew & Ec & Pre & Gp). split; [exact Go|].
    exists (map (fun d => (p_enc d, address i)) pre). split; [exact Gp|]. intros x Hx. apply in_map_iff in Hx. destruct Hx as (d & <- & Hd). split; [reflexivity|]. split; [exact (Pre d Hd)|]. unfold encoding at 2. cbn [fst].
    destruct (proj2 F _ _ Gv) as (u & Gu & Iu). unfold q in Gu. rewrite dget_map_values in Gu. destruct (L i Hi) as (l & El & _ & In' & _). rewrite El in Gu. cbn [option_map] in Gu. injection Gu as <-. apply In'. rewrite map_map in Iu. change (fun x : PacketModel.inst => p_enc (fresh text x)) with i_enc in Iu. apply Iu. apply in_map. eapply Permutation_in; [apply Permutation_sym; exact (proj1 Bf)|]. rewrite Ew. apply in_app_iff. left. exact Hd. Qed.
Print Assumptions C137_packet_loss.

(** A recuperator that prefers larger encodings. *)
Definition ex_rate (n : Z) (p : cprog) : result cprog :=
  Ok (map (fun kv => (fst kv, map (fun c => mkP (p_enc c) (p_text c) (p_ignore c) (p_enc c # 4294967296) (p_rules c)) (snd kv))) p).
Definition ex_fns : list fn := [[(0xe1a00000, 0x1004); (0x1afffff7, 0x1008)]; [(0xe5901000, 0x1000)]].
Example C137_example : (forall n p q, ex_rate n p = Ok q -> fewer p q) /\ (forall p q : cprog, Ok p = Ok q -> fewer p q) /\ first_inside (zrange 0 16) 2 3 [2] /\
  exists es initial final, packet_run (fun e _ => e) 16 2 3 (zrange 0 16) [2] ex_fns ex_rate (fun c => c) (fun p => Ok p) 5 = (es, Ok (initial, final)) /\
    map (fun kv => map encoding (snd kv)) (match read initial with Ok (_, p) => p | Err _ => [] end) = [[0xe5901000]; [0xe1a00000]; [0x1affffc7; 0x1affffd7; 0x1affffe7; 0x1afffff7]] /\
    map (fun kv => map encoding (snd kv)) (match read final with Ok (_, p) => p | Err _ => [] end) = [[0xe5901030; 0xe5901020; 0xe5901010; 0xe5901000]; [0xe1a00030; 0xe1a00020; 0xe1a00010; 0xe1a00000]; [0x1afffff7]].
Proof. split; [|split; [|split]].
  - intros n p q E. injection E as <-. split; [unfold dkeys; rewrite map_map; reflexivity|]. intros a w G. rewrite dget_map_values in G. destruct (dget p a) as [v|]; [|discriminate]. cbn [option_map] in G. injection G as <-. exists v. split; [reflexivity|]. rewrite map_map. apply incl_refl.
  - intros p q E. injection E as <-. apply fewer_refl.
  - exists 2. split; [vm_compute; split; [discriminate|reflexivity]|split; [reflexivity|lia]].
  - do 3 eexists. split; [vm_compute; reflexivity|]. split; vm_compute; reflexivity. Qed.
