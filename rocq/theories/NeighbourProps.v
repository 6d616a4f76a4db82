(** C147: what a pass of the recovery says about an instruction and its neighbours. *)
From Verif Require Import ListLemmas FlipModel FlipProofs InstModel InstProofs MetaModel MetaSpec RecModel RecSpec RecProofs RecProofs2 RecProofs3 RecProps OutcomeProps StackProps ReachProps.
From Coq Require Import ZifyBool ZifyNat Lqa.

(** ** Specification *)
Definition part (f : dinst -> bool) (l : list dinst) (n : nat) : Q := (inject_Z (Z.of_nat (length (filter f l))) / inject_Z (Z.of_nat n))%Q.
Definition larger (a b x : Q) : Prop := ((x == a)%Q \/ (x == b)%Q) /\ (a <= x)%Q /\ (b <= x)%Q.
Definition same_condition (i j : dinst) : bool := d_cond j =? d_cond i.
(** The flags register is 17. *)
Definition sets_flags (j : dinst) : bool := existsb (Z.eqb 17) (d_rwritten j).
(** The value of [i] between the candidates [before] and [after]; [n] is the number the
    share of those before with its condition is taken of. *)
Definition flow (m : pmodel) (sets : dinst -> bool) (before after : list dinst) (n : nat) (i : dinst) (x : Q) : Prop :=
  let same := same_condition i in let share f := part f before (length before) in let next := part same after (length after) in
  let near := larger (share same * next * cond_both m) (part same before n * cond_prev m) x in
  if d_cond i =? 14 then
    if existsb sets before then (x == share sets * (1 - cpsr_branch m))%Q
    else if existsb same before then near
    else (x == next * cond_prev m)%Q
  else if existsb same before then
    if existsb sets before then let either j := same j || sets j in larger (share either * next * cpsr_near m) (share either * cpsr_prev m) x
    else near
  else if existsb sets before then larger (share sets * next * cpsr_after m) (share sets * cpsr_branch m) x
  else (x == 0)%Q.
(** Nothing is impossible. *)
Definition or_low (m : pmodel) (x q : Q) : Prop := ((x == 0)%Q /\ q = low_probability m) \/ (~ (x == 0)%Q /\ (q == x)%Q).

(** *** Proof *)
Lemma number_existsb f l : (0 <? number f l) = existsb f l.
Proof. unfold number. induction l as [|x l IH]; [reflexivity|]. cbn [filter existsb]. destruct (f x); [cbn [length orb]; lia|exact IH]. Qed.
Lemma part_none f l n : existsb f l = false -> (part f l n == 0)%Q.
Proof. intros E. unfold part. assert (filter f l = []) as ->. { induction l as [|x l IH]; [reflexivity|]. cbn [existsb filter] in *. destruct (f x); [discriminate|auto]. } cbn [length]. change (inject_Z (Z.of_nat 0)) with 0%Q. unfold Qdiv. ring. Qed.
Lemma inject_nonzero z : z <> 0 -> ~ (inject_Z z == 0)%Q.
Proof. intros N E. change 0%Q with (inject_Z 0) in E. rewrite inject_Z_injective in E. contradiction. Qed.
Lemma quot_value a b q : quot a b = Ok q -> b <> 0 /\ q = (inject_Z a / inject_Z b)%Q.
Proof. unfold quot. destruct (b =? 0) eqn:E; [discriminate|]. intros H. split; [lia|]. congruence. Qed.
Lemma near_value f g b a k q : near (number g a) (Z.of_nat (length b)) (Z.of_nat (length a)) (number f b) k = Ok q -> (q == part f b (length b) * part g a (length a) * k)%Q.
Proof.
  unfold near. destruct (0 <? number g a) eqn:E.
  - destruct (quot _ _) as [v|] eqn:Q; cbn [bind]; [|discriminate]. destruct (quot_value _ _ _ Q) as [N ->]. intros H. assert (q = (inject_Z (number f b * number g a) / inject_Z (Z.of_nat (length b) * Z.of_nat (length a)) * k)%Q) as -> by congruence.
    unfold part. fold (number f b). fold (number g a). rewrite !inject_Z_mult. assert (~ (inject_Z (Z.of_nat (length b)) == 0)%Q) by (apply inject_nonzero; nia). assert (~ (inject_Z (Z.of_nat (length a)) == 0)%Q) by (apply inject_nonzero; nia). field. auto.
  - intros H. assert (q = 0%Q) as -> by congruence. rewrite number_existsb in E. rewrite (part_none g a _ E). ring.
Qed.
Lemma frac_value f l n k q : frac (number f l) (Z.of_nat n) k = Ok q -> (q == part f l n * k)%Q.
Proof. unfold frac. destruct (quot _ _) as [v|] eqn:Q; cbn [bind]; [|discriminate]. destruct (quot_value _ _ _ Q) as [N ->]. intros H. assert (q = (inject_Z (number f l) / inject_Z (Z.of_nat n) * k)%Q) as -> by congruence. reflexivity. Qed.
Lemma best_value x y q : best x y = Ok q -> exists a b, x = Ok a /\ y = Ok b /\ larger a b q.
Proof.
  unfold best. destruct x as [a|], y as [b|]; cbn [bind]; try discriminate. intros H. assert (q = qmax a b) as -> by congruence. exists a, b. split; [reflexivity|]. split; [reflexivity|]. unfold larger, qmax. destruct (qlt_spec a b) as [L|L]; [|apply Qnot_lt_le in L]; (split; [|split; lra]); [right|left]; reflexivity.
Qed.
Lemma larger_eq a b a' b' x : (a == a')%Q -> (b == b')%Q -> larger a b x -> larger a' b' x.
Proof. unfold larger. intros -> ->. auto. Qed.
Lemma flow_spec m p a i x : let b := live p (a - 4) in let n := match dget p (a - 4) with Some cs => length cs | None => 0%nat end in
  cfg_result m (d_cond i =? 14) (number (same_condition i) b) (number sets_flags b) (number (fun j => same_condition i j && sets_flags j) b) (number (same_condition i) (live p (a + 4)))
    (Z.of_nat (length b)) (Z.of_nat (length (live p (a + 4)))) (Z.of_nat n) = Ok x -> flow m sets_flags b (live p (a + 4)) n i x.
Proof.
  cbv zeta. set (b := live p (a - 4)). set (c := live p (a + 4)). set (n := match dget p (a - 4) with Some cs => length cs | None => 0%nat end). unfold cfg_result, flow. cbv zeta. pose proof (number_union (same_condition i) sets_flags b) as U.
  replace (number (same_condition i) b + number sets_flags b - number (fun j => same_condition i j && sets_flags j) b) with (number (fun j => same_condition i j || sets_flags j) b) by exact (eq_sym U). clear U. rewrite !number_existsb.
  destruct (d_cond i =? 14); cbn [negb].
  - destruct (existsb sets_flags b); [apply frac_value|]. destruct (existsb (same_condition i) b).
    + intros H. destruct (best_value _ _ _ H) as (u & v & E1 & E2 & L). exact (larger_eq _ _ _ _ _ (near_value _ _ _ _ _ _ E1) (frac_value _ _ _ _ _ E2) L).
    + destruct (existsb (same_condition i) c) eqn:E; [apply frac_value|]. intros H. assert (x = 0%Q) as -> by congruence. rewrite (part_none _ _ _ E). ring.
  - destruct (existsb (same_condition i) b), (existsb sets_flags b); cbn [andb]; [..|intros H; assert (x = 0%Q) as -> by congruence; reflexivity];
      intros H; destruct (best_value _ _ _ H) as (u & v & E1 & E2 & L); exact (larger_eq _ _ _ _ _ (near_value _ _ _ _ _ _ E1) (frac_value _ _ _ _ _ E2) L).
Qed.
Lemma neighbour_value m p a i s s' : compute_cfg m (plain p) a i s = Ok s' ->
  exists x q, s' = dset s Kpcfg q /\ flow m sets_flags (live p (a - 4)) (live p (a + 4)) (match dget p (a - 4) with Some cs => length cs | None => 0%nat end) i x /\ or_low m x q /\ (x <= 1)%Q.
Proof.
  unfold compute_cfg. cbv zeta. rewrite <- !live_kept. intros H.
  assert (Ln : match dget (plain p) (a - 4) with Some l => Z.of_nat (length l) | None => 0 end = Z.of_nat (match dget p (a - 4) with Some cs => length cs | None => 0%nat end)) by (rewrite plain_get; destruct (dget p (a - 4)); cbn [option_map]; [rewrite map_length|]; reflexivity).
  rewrite Ln in H. match type of H with (let* _ := ?c in _) = _ => destruct c as [x|] eqn:E end; cbn [bind] in H; [|discriminate]. apply (flow_spec m p a i x) in E. exists x.
  destruct (qeq_spec x 0) as [X|X]; [exists (low_probability m); split; [congruence|]; split; [exact E|]; split; [left; auto|lra]|]. destruct (qlt_spec 1 x) as [Y|Y]; [discriminate|]. apply Qnot_lt_le in Y. exists x. split; [congruence|]. split; [exact E|]. split; [right; split; [exact X|reflexivity]|exact Y].
Qed.

(** ** C147 *)
(** Read with capstone, [cmp r0, #1] sets the flags and yet [beq] behind it gets the least
    probability; and a candidate that is ignored halves the value of an instruction behind
    one with its condition. *)
Definition cmp_cap := mkCap KOther 23 15 [OReg 66; OImm 1] false false true.
Definition beq_cap := mkCap KOther 17 1 [OImm 0] false true false.
Definition as_cand (enc a : Z) (ignored : bool) (c : cap) : list cand := match view enc a ignored c with Ok d => [mkCand d [] AddScore] | Err _ => [] end.
Definition ex_cmp : cprogram := [(0, as_cand 3813670913 0 false cmp_cap); (4, as_cand 167772159 4 false beq_cap)].
Definition moveq_cap := mkCap KOther 82 1 [OReg 66; OImm 1] false false false.
Definition ex_ignored : cprogram := [(0, as_cand 61865985 0 false moveq_cap ++ as_cand 1 0 true cmp_cap); (4, as_cand 61865985 4 false moveq_cap)].
Theorem C147_neighbours_refuted :
  (exists p', recover default_model new_collector [(0, (0, 4))] ex_cmp = Ok p' /\ c_flags cmp_cap = true /\ length (live ex_cmp 0) = 1%nat /\
     option_map (map (fun c => dget (c_scores c) Kpcfg)) (dget p' 4) = Some [Some (low_probability default_model)]) /\
  (exists p' q, recover default_model new_collector [(0, (0, 4))] ex_ignored = Ok p' /\ part (same_condition (hd (mkD 0 0 true 0 0 [] [] [] [] [] false KOther None) (live ex_ignored 4))) (live ex_ignored 0) (length (live ex_ignored 0)) = 1%Q /\
     option_map (map (fun c => dget (c_scores c) Kpcfg)) (dget p' 4) = Some [Some q] /\ (q == cond_prev default_model / 2)%Q).
Proof.
  split; [eexists; split; [vm_compute; reflexivity|]; split; [reflexivity|]; split; vm_compute; reflexivity|]. do 2 eexists. split; [vm_compute; reflexivity|]. split; [vm_compute; reflexivity|]. split; [vm_compute; reflexivity|]. vm_compute. reflexivity.
Qed.
Print Assumptions C147_neighbours_refuted.
(** No instruction read with capstone counts as setting the flags. *)
Theorem C147_capstone : forall enc addr ignored c d, (forall code, In (OReg code) (c_operands c) -> 0 <= code) -> view enc addr ignored c = Ok d -> sets_flags d = false.
Proof.
  intros enc addr ign c d H E. unfold view in E.
  destruct (fst (storages_used (caps_queries c) no_caches)) as [u|]; cbn [bind] in E; [|discriminate].
  destruct (fst (storages_written (caps_queries c) no_caches)) as [w|]; cbn [bind] in E; [|discriminate].
  destruct (fst (storages_read (caps_queries c) no_caches)) as [r|]; cbn [bind] in E; [|discriminate].
  destruct (registers_written c) as [rw|] eqn:Erw; cbn [bind] in E; [|discriminate].
  destruct (registers_read c) as [rr|]; cbn [bind] in E; [|discriminate].
  destruct (is_branch c) as [b|]; cbn [bind] in E; [|discriminate].
  destruct (jumping_address c) as [j|]; cbn [bind] in E; [|discriminate].
  unfold sets_flags. assert (d_rwritten d = rw) as -> by (injection E as <-; reflexivity).
  destruct (existsb (Z.eqb 17) rw) eqn:Ex; [|reflexivity]. exfalso. apply existsb_exists in Ex as (x & Hx & Ex). assert (x = 17) as -> by lia. clear Ex.
  unfold registers_written in Erw. destruct (c_kind c).
  - assert (rw = []) as -> by congruence. contradiction.
  - destruct (used_values c rw 17 Erw Hx) as [A|(code & A & _ & B)]; [lia|specialize (H code B); lia].
  - destruct (registers_used c) as [l|] eqn:El; cbn [rmap] in Erw; [|discriminate]. assert (rw = firstn 1 l) as -> by congruence.
    destruct (used_values c l 17 El (firstn1_in _ _ Hx)) as [A|(code & A & _ & B)]; [lia|specialize (H code B); lia].
Qed.
Print Assumptions C147_capstone.
(** The exact value. *)
Theorem C147_neighbours_partial : forall m col fns p p', NoDup (dkeys p) -> recover m col fns p = Ok p' ->
  forall a cs, dget p a = Some cs -> exists cs', dget p' a = Some cs' /\
    Forall2 (fun c c' => let i := c_inst c in
      ((exists b, In b (dkeys p) /\ b < a) -> d_ignore i = false -> exists x q, dget (c_scores c') Kpcfg = Some q /\
        flow m sets_flags (live p (a - 4)) (live p (a + 4)) (match dget p (a - 4) with Some l => length l | None => 0%nat end) i x /\ or_low m x q /\ (x <= 1)%Q) /\
      ((forall b, In b (dkeys p) -> a <= b) \/ d_ignore i = true -> dget (c_scores c') Kpcfg = dget (c_scores c) Kpcfg)) cs cs'.
Proof.
  intros m col fns p p' N H a cs G. destruct (recover_spec m col fns p N) as [B _]. destruct (B p' H) as (lo & hi & Hlo & Hlo' & _ & _ & _ & F). destruct (F a cs G) as (fn & first & cs' & Cf & Hf & G' & F2). exists cs'. split; [exact G'|].
  refine (Forall2_weaken _ _ _ _ _ F2). clear F2. intros c c' E. cbv zeta. destruct (d_ignore (c_inst c)) eqn:Ig; [unfold score_candidate in E; rewrite Ig in E; assert (c' = c) as -> by congruence; split; [discriminate|reflexivity]|].
  destruct (later_scores _ _ _ _ _ _ _ _ _ _ _ _ E Ig) as (s & K & V). destruct first.
  - rewrite V. assert (a = lo) as -> by now apply Hf. split; [intros (b & Ib & Lb); specialize (Hlo' b Ib); lia|]. intros _. apply K. auto.
  - split.
    + intros _ _. destruct (neighbour_value _ _ _ _ _ _ V) as (x & q & -> & X). exists x, q. split; [apply dget_dset_same|exact X].
    + intros [X|X]; [|discriminate]. exfalso. assert (false = true) by (apply Hf; specialize (X lo Hlo); assert (lo <= a) by (apply Hlo', dget_some_in; eauto); lia). discriminate.
Qed.
Print Assumptions C147_neighbours_partial.
(** An instruction known to set the flags, and a conditional one behind it that shares its
    condition with the one after. *)
Definition cmp_darm := mkCand (mkD 5 0 false 14 23 [0; 17] [17] [0] [17] [0] false KOther None) [] AddScore.
Definition moveq (a : Z) := mkCand (mkD 6 a false 0 82 [1] [1] [17] [1] [17] false KOther None) [] AddScore.
Definition ex_flow : cprogram := [(0, [cmp_darm; setter 0]); (4, [moveq 4]); (8, [moveq 8; getter 8])].
Example C147_example : NoDup (dkeys ex_flow) /\ (exists b, In b (dkeys ex_flow) /\ b < 4) /\ sets_flags (c_inst cmp_darm) = true /\ length (live ex_flow 0) = 2%nat /\
  flow default_model sets_flags (live ex_flow 0) (live ex_flow 8) 2 (c_inst (moveq 4)) (3 # 10) /\
  view 3813670913 0 false cmp_cap = Ok (c_inst (hd cmp_darm (as_cand 3813670913 0 false cmp_cap))) /\
  exists p' q, recover default_model new_collector [(0, (0, 8))] ex_flow = Ok p' /\ option_map (map (fun c => dget (c_scores c) Kpcfg)) (dget p' 4) = Some [Some q] /\ (q == 3 # 10)%Q.
Proof.
  split; [repeat constructor; cbn; lia|]. split; [exists 0; cbn; auto with zarith|]. split; [reflexivity|]. split; [reflexivity|]. split; [split; [right; reflexivity|split; vm_compute; discriminate]|]. split; [reflexivity|]. do 2 eexists. split; [vm_compute; reflexivity|]. split; vm_compute; reflexivity.
Qed.
