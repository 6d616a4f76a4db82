(** C166: candidates already ruled out, and a pass of the recovery. *)
From Verif Require Import ListLemmas FlipModel FlipProofs InstModel MetaModel MetaSpec MetaProofs MetaProps RecModel RecSpec RecProofs RecProofs2 RecProofs3 RecProofs4 RemoveProofs RecProps OutcomeProps OrderProofs NeighbourProps.
From Coq Require Import ZifyBool ZifyNat Permutation Sorted Lqa.

(** The program with the ruled out candidates taken from the lists. *)
Definition in_play (c : cand) : bool := negb (d_ignore (c_inst c)).
Definition without (p : cprogram) : cprogram := map (fun kv => (fst kv, filter in_play (snd kv))) p.
(** Some candidate of the address is ruled out. *)
Definition ruled_out_at (p : cprogram) (a : Z) : Prop := exists c, candidate p a c /\ in_play c = false.
(** Of the candidates left at the address before, some have the condition of [i] and none writes the flags. *)
Definition condition_before (p : cprogram) (a : Z) (i : dinst) : Prop :=
  (exists c, candidate p (a - 4) c /\ in_play c = true /\ d_cond (c_inst c) = d_cond i) /\
  forall c, candidate p (a - 4) c -> in_play c = true -> ~ In CPSR (d_rwritten (c_inst c)).
(** The same scores, apart from the two that may grow, each in its case. *)
Definition scored_as (p : cprogram) (a : Z) (i : dinst) (s s' : scores) : Prop := forall k, match dget s k, dget s' k with
  | Some x, Some y => x = y \/ ((x <= y)%Q /\ (k = Kpopu /\ ruled_out_at p a \/ k = Kpcfg /\ ruled_out_at p (a - 4) /\ condition_before p a i))
  | None, None => True
  | _, _ => False end.

Lemma without_get p a : dget (without p) a = option_map (filter in_play) (dget p a).
Proof. unfold without. induction p as [|[k v] p IH]; [reflexivity|]. cbn [map fst snd dget]. destruct (a =? k); [reflexivity|exact IH]. Qed.
Lemma without_keys p : dkeys (without p) = dkeys p.
Proof. unfold without, dkeys. rewrite map_map. reflexivity. Qed.
Lemma plain_without p a : dget (plain (without p)) a = option_map (filter (fun i => negb (d_ignore i))) (dget (plain p) a).
Proof. rewrite !plain_get, without_get. destruct (dget p a) as [v|]; [|reflexivity]. cbn [option_map]. f_equal. induction v as [|c v IH]; [reflexivity|]. cbn [filter map]. unfold in_play at 1. destruct (negb (d_ignore (c_inst c))); cbn [map]; rewrite IH; reflexivity. Qed.
Lemma filter_twice {A} (f : A -> bool) l : filter f (filter f l) = filter f l.
Proof. induction l as [|x l IH]; [reflexivity|]. cbn [filter]. destruct (f x) eqn:E; cbn [filter]; [rewrite E|]; congruence. Qed.

Section Views.
Context (P R : dprogram) (H : forall a, dget R a = option_map (filter (fun i => negb (d_ignore i))) (dget P a)).
Lemma kept_same a : kept_here (dget R a) = kept_here (dget P a).
Proof. rewrite H. destruct (dget P a) as [l|]; [|reflexivity]. cbn [option_map kept_here]. apply filter_twice. Qed.
Lemma fold_kept {S} (f : S -> dinst -> S) l : (forall s i, d_ignore i = true -> f s i = s) -> forall s, fold_left f (filter (fun i => negb (d_ignore i)) l) s = fold_left f l s.
Proof. intros E. induction l as [|i l IH]; intros s; [reflexivity|]. cbn [filter fold_left]. destruct (d_ignore i) eqn:Ig; cbn [negb fold_left]; [rewrite (E s i Ig)|]; apply IH. Qed.
Lemma op_prob_kept k a regs : op_prob R k a regs = op_prob P k a regs.
Proof. unfold op_prob, dget_r. rewrite H. destruct (dget P a) as [l|]; [|reflexivity]. cbn [option_map bind]. rewrite fold_kept; [reflexivity|]. intros [[c t] e] i ->. reflexivity. Qed.
Lemma walk_down_kept : forall addrs cb cp t p2, walk_down R addrs cb cp t p2 = walk_down P addrs cb cp t p2.
Proof. induction addrs as [|a addrs IH]; intros cb cp t p2; [reflexivity|]. cbn [walk_down]. unfold dget_r. rewrite H. destruct (dget P a) as [l|]; [|reflexivity]. cbn [option_map bind]. rewrite fold_kept; [|intros [[b c] t'] i ->; reflexivity].
  destruct (fold_left _ l (cb, cp, t)) as [[cb' cp'] t']. cbv zeta. destruct (qlt 0 _); [reflexivity|apply IH]. Qed.
Lemma survive_kept r : forall addrs q, survive R r addrs q = survive P r addrs q.
Proof. induction addrs as [|a addrs IH]; intros q; [reflexivity|]. cbn [survive]. pose proof (kept_same a) as K. rewrite H in K |- *. destruct (dget P a) as [l|]; [|apply IH]. cbn [option_map] in K |- *. cbv zeta. rewrite K. destruct (0 <? _); [|apply IH]. destruct (Qeq_bool _ 1); [reflexivity|apply IH]. Qed.
Lemma distance_kept m col a : forall reads q, register_distance m col R a reads q = register_distance m col P a reads q.
Proof. induction reads as [|r reads IH]; intros q; [reflexivity|]. cbn [register_distance]. destruct (match dget (min_dist col) r with Some _ => _ | None => _ end) as [x y]. rewrite survive_kept. destruct (Qle_bool 1 _); [reflexivity|apply IH]. Qed.
End Views.
Lemma addresses_kept f p : number_of_addresses f (plain (without p)) = number_of_addresses f (plain p).
Proof. unfold number_of_addresses, plain, without. f_equal. induction p as [|[k v] p IH]; [reflexivity|]. cbn [map filter fst snd].
  assert (E : at_least_one f (map c_inst (filter in_play v)) = at_least_one f (map c_inst v)).
  { unfold at_least_one, kept. clear. induction v as [|c v IH]; [reflexivity|]. cbn [filter map]. unfold in_play at 1. destruct (negb (d_ignore (c_inst c))) eqn:E; cbn [map filter]; rewrite ?E; cbn [existsb]; rewrite ?IH; reflexivity. }
  rewrite E. destruct (at_least_one f (map c_inst v)); cbn [length]; rewrite IH; reflexivity. Qed.

(** *** Outcomes *)
Lemma outcome_bind {A B C D} (R : A -> B -> Prop) (R' : C -> D -> Prop) x y f g : same_outcome R x y -> (forall a b, R a b -> same_outcome R' (f a) (g b)) -> same_outcome R' (bind x f) (bind y g).
Proof. destruct x as [a|], y as [b|]; cbn [same_outcome bind]; auto; contradiction. Qed.
Lemma scored_refl p a i s : scored_as p a i s s.
Proof. intros k. destruct (dget s k); auto. Qed.
Lemma scored_set p a i s s' k x y : scored_as p a i s s' -> x = y \/ ((x <= y)%Q /\ (k = Kpopu /\ ruled_out_at p a \/ k = Kpcfg /\ ruled_out_at p (a - 4) /\ condition_before p a i)) -> scored_as p a i (dset s k x) (dset s' k y).
Proof. intros H V j. rewrite !dget_dset. destruct (Z.eqb_spec j k) as [->|_]; [exact V|apply H]. Qed.

Lemma filter_length_eq {A} (f : A -> bool) l : (forall x, In x l -> f x = true) -> filter f l = l.
Proof. induction l as [|x l IH]; intros E; [reflexivity|]. cbn [filter]. rewrite (E x) by (left; reflexivity). f_equal. apply IH. intros y I. apply E. right; exact I. Qed.
Lemma all_in_play v : (forall c, In c v -> in_play c = true) \/ exists c, In c v /\ in_play c = false.
Proof. induction v as [|c v IH]; [left; intros c []|]. destruct (in_play c) eqn:E; [|right; exists c; cbn; auto]. destruct IH as [IH|(d & I & D)]; [left; intros d [<-|I]; auto|right; exists d; cbn; auto]. Qed.
Lemma quot_pos a b : 0 < b -> quot a b = Ok (inject_Z a / inject_Z b)%Q.
Proof. intros L. unfold quot. destruct (Z.eqb_spec b 0); [lia|reflexivity]. Qed.
Lemma share_grows a b b' : 0 <= a -> 0 < b' -> b' <= b -> (inject_Z a / inject_Z b <= inject_Z a / inject_Z b')%Q.
Proof. intros A B L. assert (Pa : (0 <= inject_Z a)%Q) by (change 0%Q with (inject_Z 0); rewrite <- Zle_Qle; lia). assert (Pb' : (0 < inject_Z b')%Q) by (change 0%Q with (inject_Z 0); rewrite <- Zlt_Qlt; lia). assert (Pb : (0 < inject_Z b)%Q) by (change 0%Q with (inject_Z 0); rewrite <- Zlt_Qlt; lia). assert (Lq : (inject_Z b' <= inject_Z b)%Q) by (rewrite <- Zle_Qle; lia).
  apply Qle_shift_div_l; [exact Pb'|]. setoid_replace (inject_Z a / inject_Z b * inject_Z b')%Q with (inject_Z a * (inject_Z b' / inject_Z b))%Q by (field; lra).
  assert ((inject_Z b' / inject_Z b <= 1)%Q) by (apply Qle_shift_div_r; lra). nra. Qed.
Lemma qmax_grows x y z : (y <= z)%Q -> (qmax x y <= qmax x z)%Q.
Proof. intros L. unfold qmax. destruct (qlt_spec x y), (qlt_spec x z); lra. Qed.

Section Pass.
Context (m : pmodel) (V : valid_model m) (col : collector) (fns : functions) (p : cprogram).
Let P := plain p.
Let R := plain (without p).
Let HR : forall a, dget R a = option_map (filter (fun i => negb (d_ignore i))) (dget P a) := plain_without p.

Lemma finish_kept a c s s' p1 p2 e : candidate p a c -> in_play c = true -> scored_as p a (c_inst c) s s' -> same_outcome (scored_as p a (c_inst c)) (finish_push_pop m P a s p1 p2 e) (finish_push_pop m R a s' p1 p2 e).
Proof. intros (cs & G & I) Pc S. unfold finish_push_pop, dget_r. unfold P, R. rewrite !plain_get, without_get, G. cbn [option_map bind]. rewrite !map_length.
  assert (L : (0 < length (filter in_play cs))%nat) by (assert (J : In c (filter in_play cs)) by (apply filter_In; auto); destruct (filter in_play cs); [destruct J|cbn; lia]).
  pose proof (filter_length_le in_play cs) as Le. rewrite !quot_pos by lia. cbn [bind same_outcome]. apply scored_set; [exact S|]. destruct (all_in_play cs) as [Al|(d & Id & Ed)]; [left; rewrite (filter_length_eq in_play cs Al); reflexivity|]. destruct e; [left; reflexivity|]. right. split; [|left; split; [reflexivity|exists d; split; [exists cs; auto|exact Ed]]].
  apply qmax_grows. apply share_grows; lia. Qed.
Lemma push_pop_kept a fn c s s' : candidate p a c -> in_play c = true -> scored_as p a (c_inst c) s s' -> same_outcome (scored_as p a (c_inst c)) (compute_push_pop m P fns a fn (c_inst c) s) (compute_push_pop m R fns a fn (c_inst c) s').
Proof. intros C Pc S. unfold compute_push_pop. cbv zeta. destruct (d_kind (c_inst c)); [| |exact S].
  - destruct (dget fns a) as [[f l]|]; [|apply finish_kept; assumption]. rewrite (op_prob_kept P R HR), (walk_down_kept P R HR). destruct (op_prob P KPop l _) as [[p1 e]|]; cbn [bind]; [|exact Logic.I]. destruct (walk_down P _ 0 0 0 0); cbn [bind]; [apply finish_kept; assumption|exact Logic.I].
  - rewrite (op_prob_kept P R HR). destruct (op_prob P KPush fn _) as [[p1 e]|]; cbn [bind]; [apply finish_kept; assumption|exact Logic.I]. Qed.
Lemma branch_kept a fn lo hi i s s' : scored_as p a i s s' -> same_outcome (scored_as p a i) (compute_branch_address m fns fn lo hi i s) (compute_branch_address m fns fn lo hi i s').
Proof. intros S. unfold compute_branch_address. destruct (d_ignore i || negb (d_branch i)); [exact S|]. destruct (d_jump i) as [j|]; [|apply scored_set; auto]. match goal with |- same_outcome _ (bind ?x _) _ => destruct x as [[|]|] end; cbn [bind]; [apply scored_set; auto| |exact Logic.I].
  destruct (dmem fns j); [apply scored_set; auto|]. destruct ((hi <? j) || (j <? lo)); apply scored_set; auto. Qed.

Lemma number_kept_in f a : number f (kept_here (dget P a)) > 0 <-> exists c, candidate p a c /\ in_play c = true /\ f (c_inst c) = true.
Proof. unfold P. rewrite plain_get. split.
  - intros N. destruct (dget p a) as [cs|] eqn:G; [|exfalso; cbn in N; lia]. cbn [option_map kept_here] in N. unfold number in N. destruct (filter f _) as [|i l] eqn:E; [cbn in N; lia|]. assert (I : In i (filter f (filter (fun i => negb (d_ignore i)) (map c_inst cs)))) by (rewrite E; left; reflexivity).
    apply filter_In in I. destruct I as [I Fi]. apply filter_In in I. destruct I as [I Ni]. apply in_map_iff in I. destruct I as (c & <- & I). exists c. split; [exists cs; auto|auto].
  - intros (c & (cs & G & I) & Pc & Fc). rewrite G. cbn [option_map kept_here]. unfold number. assert (J : In (c_inst c) (filter f (filter (fun i => negb (d_ignore i)) (map c_inst cs)))) by (apply filter_In; split; [apply filter_In; split; [apply in_map, I|exact Pc]|exact Fc]). destruct (filter f _); [destruct J|cbn [length]; lia]. Qed.
Lemma cfg_reads (x : result Q) (s : scores) q : (let* r := x in if Qeq_bool r 0 then Ok (dset s Kpcfg (low_probability m)) else if qlt 1 r then Err RuntimeError else Ok (dset s Kpcfg r)) = Ok (dset s Kpcfg q) ->
  exists r, x = Ok r /\ ((r == 0)%Q /\ q = low_probability m \/ ~ (r == 0)%Q /\ q = r).
Proof. assert (G : forall y z, Ok (dset s Kpcfg y) = Ok (dset s Kpcfg z) -> z = y). { intros y z Y. assert (Z' : dget (dset s Kpcfg y) Kpcfg = dget (dset s Kpcfg z) Kpcfg) by congruence. rewrite !dget_dset, Z.eqb_refl in Z'. congruence. }
  destruct x as [r|]; cbn [bind]; [|discriminate]. intros E. exists r. split; [reflexivity|]. destruct (qeq_spec r 0) as [Z0|N0]; [left; split; [exact Z0|exact (G _ _ E)]|]. right. split; [exact N0|]. destruct (qlt 1 r); [discriminate|exact (G _ _ E)]. Qed.
Lemma condition_grows (x : result Q) sc len len' r r' : 0 < sc -> 0 < len' -> len' <= len -> best x (frac sc len (cond_prev m)) = Ok r -> best x (frac sc len' (cond_prev m)) = Ok r' -> (0 < r /\ r <= r')%Q.
Proof. intros Ls L' Le. unfold frac. rewrite !quot_pos by lia. unfold best. cbn [bind]. destruct x as [p1|]; cbn [bind]; [|discriminate]. intros E E'. assert (r = qmax p1 (inject_Z sc / inject_Z len * cond_prev m)) as -> by congruence. assert (r' = qmax p1 (inject_Z sc / inject_Z len' * cond_prev m)) as -> by congruence. clear E E'.
  pose proof (share_grows sc len len' ltac:(lia) L' Le) as G. assert (Cp : (0 < cond_prev m)%Q) by apply V.
  assert (Pos : (0 < inject_Z sc / inject_Z len)%Q) by (apply Qlt_shift_div_l; [change 0%Q with (inject_Z 0); rewrite <- Zlt_Qlt; lia|]; setoid_replace (0 * inject_Z len)%Q with (inject_Z 0) by (change (inject_Z 0) with 0%Q; ring); rewrite <- Zlt_Qlt; lia).
  assert (Pp : (0 < inject_Z sc / inject_Z len * cond_prev m)%Q) by (apply Qmult_lt_0_compat; assumption). split; [unfold qmax; destruct (qlt_spec p1 (inject_Z sc / inject_Z len * cond_prev m)); lra|]. apply qmax_grows. apply Qmult_le_compat_r; [exact G|lra]. Qed.
Lemma cfg_kept a c s s' : scored_as p a (c_inst c) s s' -> same_outcome (scored_as p a (c_inst c)) (compute_cfg m P a (c_inst c) s) (compute_cfg m R a (c_inst c) s').
Proof. intros S. set (i := c_inst c) in *. destruct (cfg_spec m V P a i s) as (q & Pq & E). destruct (cfg_spec m V R a i s') as (q' & Pq' & E'). rewrite E, E'. cbn [same_outcome]. apply scored_set; [exact S|].
  unfold compute_cfg in E, E'. cbv zeta in E, E'. rewrite !(kept_same P R HR) in E'.
  pose proof (number_kept_in (fun j => d_cond j =? d_cond i) (a - 4)) as Ns. pose proof (number_kept_in (fun j => zmem CPSR (d_rwritten j)) (a - 4)) as Nf. pose proof (number_le (fun j => d_cond j =? d_cond i) (kept_here (dget P (a - 4)))) as Ls. pose proof (number_le (fun j => zmem CPSR (d_rwritten j)) (kept_here (dget P (a - 4)))) as Lf.
  set (sc := number (fun j => d_cond j =? d_cond i) (kept_here (dget P (a - 4)))) in *. set (fm := number (fun j => zmem CPSR (d_rwritten j)) (kept_here (dget P (a - 4)))) in *. set (un := number _ (kept_here (dget P (a - 4)))) in *. set (af := number _ (kept_here (dget P (a + 4)))) in *.
  set (K := Z.of_nat (length (kept_here (dget P (a - 4))))) in *. set (K2 := Z.of_nat (length (kept_here (dget P (a + 4))))) in *. set (len := match dget P (a - 4) with Some l => Z.of_nat (length l) | None => 0 end) in *. set (len' := match dget R (a - 4) with Some l => Z.of_nat (length l) | None => 0 end) in *.
  assert (Len : len' = K) by (unfold len', K; rewrite HR; destruct (dget P (a - 4)); reflexivity).
  assert (Le : len' <= len) by (rewrite Len; unfold len, K; destruct (dget P (a - 4)) as [l|]; cbn [kept_here length]; [pose proof (filter_length_le (fun i => negb (d_ignore i)) l)|]; lia).
  assert (Ro : len' <> len -> ruled_out_at p (a - 4)).
  { intros D. unfold len', len, R, P in D. rewrite !plain_get, without_get in D. destruct (dget p (a - 4)) as [cs|] eqn:G; [|exfalso; apply D; reflexivity]. cbn [option_map] in D. rewrite !map_length in D. destruct (all_in_play cs) as [Al|(d & Id & Ed)]; [rewrite (filter_length_eq in_play cs Al) in D; congruence|]. exists d. split; [exists cs; auto|exact Ed]. }
  apply cfg_reads in E, E'. destruct E as (r & E & Q1). destruct E' as (r' & E' & Q2).
  destruct (Z.eq_dec len' len) as [El|Dl]; [left; assert (r = r') as <- by congruence; destruct Q1 as [[A ->]|[A ->]], Q2 as [[B ->]|[B ->]]; try reflexivity; contradiction|].
  destruct (Z_lt_dec 0 sc) as [Ps|Ns0]; [destruct (Z_lt_dec 0 fm) as [Pf|Nf0]|].
  - left. unfold cfg_result in E, E'. cbv zeta in E, E'. rewrite (proj2 (Z.ltb_lt _ _) Ps), (proj2 (Z.ltb_lt _ _) Pf) in E, E'. cbn [andb] in E, E'. assert (r = r') as <- by congruence. destruct Q1 as [[A ->]|[A ->]], Q2 as [[B ->]|[B ->]]; try reflexivity; contradiction.
  - right. unfold cfg_result in E, E'. cbv zeta in E, E'. rewrite (proj2 (Z.ltb_lt _ _) Ps), (proj2 (Z.ltb_ge 0 fm)) in E, E' by lia. cbn [andb] in E, E'.
    assert (G : (0 < r /\ r <= r')%Q) by (destruct (negb (d_cond i =? 14)); exact (condition_grows _ sc len len' r r' Ps ltac:(lia) Le E E')). destruct G as [G1 G2]. destruct Q1 as [[A _]|[A ->]]; [lra|]. destruct Q2 as [[B _]|[B ->]]; [lra|]. split; [exact G2|]. right. split; [reflexivity|]. split; [exact (Ro Dl)|]. split.
    + destruct (proj1 Ns ltac:(lia)) as (d & Cd & Pd & Ed). exists d. split; [exact Cd|]. split; [exact Pd|]. apply Z.eqb_eq, Ed.
    + intros d Cd Pd I. apply Nf0. enough (fm > 0) by lia. apply Nf. exists d. split; [exact Cd|]. split; [exact Pd|]. apply zmem_in, I.
  - left. unfold cfg_result in E, E'. cbv zeta in E, E'. rewrite (proj2 (Z.ltb_ge 0 sc)) in E, E' by lia. cbn [andb] in E, E'. assert (r = r') as <- by congruence. destruct Q1 as [[A ->]|[A ->]], Q2 as [[B ->]|[B ->]]; try reflexivity; contradiction. Qed.

Lemma step_kept lo hi fn a c : candidate p a c -> in_play c = true ->
  same_outcome (fun c1 c2 => c_inst c1 = c_inst c /\ c_inst c2 = c_inst c /\ c_fn c1 = c_fn c2 /\ scored_as p a (c_inst c) (c_scores c1) (c_scores c2)) (step m col fns p lo hi fn a c) (step m col fns (without p) lo hi fn a c).
Proof. intros C Pc. unfold step. fold P R. 
  assert (W : forall k, let w := collect_program (mkWith [] [] []) P in let w' := collect_program (mkWith [] [] []) R in dget (with_cond w') k = dget (with_cond w) k /\ dget (with_op w') k = dget (with_op w) k /\ dget (with_reg w') k = dget (with_reg w) k).
  { intros k. cbv zeta. destruct (C37_addresses (mkWith [] [] []) P k) as (-> & -> & ->). destruct (C37_addresses (mkWith [] [] []) R k) as (-> & -> & ->). unfold P, R. rewrite !addresses_kept. auto. }
  unfold score_candidate. assert (Ig : d_ignore (c_inst c) = false) by (unfold in_play in Pc; destruct (d_ignore (c_inst c)); [discriminate|reflexivity]). rewrite Ig. unfold compute_conditional, compute_opcode, compute_registers, compute_register_distance, ratio, dget_r.
  rewrite (proj1 (W (d_cond (c_inst c)))), (proj1 (proj2 (W (d_op (c_inst c))))).
  set (w' := collect_program (mkWith [] [] []) R) in *. set (w := collect_program (mkWith [] [] []) P) in *. cbv zeta in W.
  assert (Fe : forall s, foldM (fun (av : Q) r => let* q := (let* a0 := match dget (storage_count col) r with Some a0 => Ok a0 | None => Err KeyError end in let* b := match dget (with_reg w') r with Some a0 => Ok a0 | None => Err KeyError end in quot a0 b) in Ok (qmin av q)) (d_used (c_inst c)) s =
     foldM (fun (av : Q) r => let* q := (let* a0 := match dget (storage_count col) r with Some a0 => Ok a0 | None => Err KeyError end in let* b := match dget (with_reg w) r with Some a0 => Ok a0 | None => Err KeyError end in quot a0 b) in Ok (qmin av q)) (d_used (c_inst c)) s).
  { apply foldM_ext. intros s r. rewrite (proj2 (proj2 (W r))). reflexivity. }
  rewrite Fe. rewrite (distance_kept P R HR). destruct (or_zero _) as [pc|]; cbn [bind]; [|exact Logic.I]. destruct (or_zero _) as [po|]; cbn [bind]; [|exact Logic.I].
  match goal with |- same_outcome _ (bind ?x _) (bind ?x _) => destruct x as [s2|]; cbn [bind]; [|exact Logic.I] end.
  apply (outcome_bind (scored_as p a (c_inst c))); [apply push_pop_kept; [exact C|exact Pc|apply scored_refl]|]. intros s3 s3' S3.
  apply (outcome_bind (scored_as p a (c_inst c))); [apply branch_kept, S3|]. intros s4 s4' S4.
  apply (outcome_bind (scored_as p a (c_inst c))).
  - destruct (a =? lo); [exact S4|]. apply cfg_kept. destruct (d_branch (c_inst c) || pushpop (c_inst c)); [exact S4|]. apply scored_set; [exact S4|left; reflexivity].
  - intros s5 s5' S5. cbn [same_outcome c_inst c_fn c_scores]. auto. Qed.
End Pass.

(** ** C166 *)
(** The full claim: the candidates in play get the same scores whether or not those ruled
    out are still listed.  It fails for the place in the control flow and for pushes and pops;
    these two scores can only be lower. *)
Theorem C166_ruled_out_partial : forall m col fns p, valid_model m -> NoDup (dkeys p) ->
  same_outcome (fun p1 p2 => dkeys p1 = dkeys p2 /\ forall a l1 l2, dget p1 a = Some l1 -> dget p2 a = Some l2 ->
      Forall2 (fun c1 c2 => c_inst c1 = c_inst c2 /\ c_fn c1 = c_fn c2 /\ scored_as p a (c_inst c1) (c_scores c1) (c_scores c2)) (filter in_play l1) l2)
    (recover m col fns p) (recover m col fns (without p)).
Proof. intros m col fns p V N. destruct p as [|kv p0] eqn:Ep; [exact Logic.I|]. rewrite <- Ep in *. destruct (bounds_exist p N) as (lo & hi & B); [rewrite Ep; discriminate|]. clear Ep.
  assert (B' : bounds (without p) lo hi) by (unfold bounds; rewrite without_keys; exact B). assert (N' : NoDup (dkeys (without p))) by (rewrite without_keys; exact N).
  destruct (recover m col fns p) as [p1|e] eqn:R1, (recover m col fns (without p)) as [p2|e'] eqn:R2; cbn [same_outcome]; [| | |exact Logic.I].
  - destruct (recover_ok m col fns p p1 N R1) as (lo1 & hi1 & B1 & K1 & F1). destruct (recover_ok m col fns (without p) p2 N' R2) as (lo2 & hi2 & B2 & K2 & F2). destruct (bounds_one p lo hi lo1 hi1 B B1) as [<- <-]. destruct (bounds_one _ lo hi lo2 hi2 B' B2) as [<- <-].
    split; [rewrite K1, K2, without_keys; reflexivity|]. intros a l1 l2 G1 G2. destruct (dget p a) as [cs|] eqn:G. 2:{ exfalso. assert (In a (dkeys p)) by (rewrite <- K1; apply dget_some_in; eauto). apply dget_some_in in H. destruct H. congruence. }
    destruct (F1 a cs G) as (fn & l1' & Cu & G1' & Fa). assert (l1' = l1) as -> by congruence. destruct (F2 a (filter in_play cs)) as (fn' & l2' & Cu' & G2' & Fb); [rewrite without_get, G; reflexivity|]. assert (l2' = l2) as -> by congruence. rewrite without_keys in Cu'.
    assert (fn' = fn) as -> by (apply (current_one fns (dkeys p) a); [apply dget_some_in; eauto|exact Cu'|exact Cu]).
    assert (Ic : forall c, In c cs -> candidate p a c) by (intros c I; exists cs; auto). clear - Fa Fb Ic V. revert l2 Fb. induction Fa as [|c c1 cs l1 E F IH]; intros l2 Fb; [inversion Fb; constructor|]. cbn [filter] in Fb |- *.
    assert (Hi : in_play c1 = in_play c). { unfold step, score_candidate in E. unfold in_play at 2. destruct (d_ignore (c_inst c)) eqn:Ig; [injection E as <-; unfold in_play; rewrite Ig; reflexivity|]. repeat match type of E with bind ?x _ = _ => destruct x; cbn [bind] in E; [|discriminate] end. injection E as <-. unfold in_play. cbn [c_inst]. rewrite Ig. reflexivity. }
    rewrite Hi. destruct (in_play c) eqn:Pc; [|apply IH; [intros d I; apply Ic; right; exact I|exact Fb]]. inversion Fb as [|? c2 ? l2' E2 Fb']; subst. constructor; [|apply IH; [intros d I; apply Ic; right; exact I|exact Fb']].
    pose proof (step_kept m V col fns p lo hi fn a c (Ic c (or_introl eq_refl)) Pc) as S. rewrite E, E2 in S. cbn [same_outcome] in S. destruct S as (S1 & S2 & S3 & S4). rewrite S1, S2. auto.
  - destruct (recover_err m col fns (without p) e' lo hi N' B' R2) as (a & ds & d & fn & G & I & Cu & E). rewrite without_keys in Cu. rewrite without_get in G. destruct (dget p a) as [cs|] eqn:Gp; [|discriminate]. cbn [option_map] in G. assert (ds = filter in_play cs) as -> by congruence. apply filter_In in I. destruct I as [I Pd].
    destruct (recover_ok m col fns p p1 N R1) as (lo' & hi' & B2 & _ & F). destruct (bounds_one p lo hi lo' hi' B B2) as [<- <-]. destruct (F a cs Gp) as (fn' & cs' & Cu' & _ & F2). assert (fn' = fn) as -> by (apply (current_one fns (dkeys p) a); [apply dget_some_in; eauto|exact Cu'|exact Cu]).
    destruct (forall2_in_l _ _ _ F2 d I) as (d' & _ & Ed). pose proof (step_kept m V col fns p lo hi fn a d ltac:(exists cs; auto) Pd) as S. rewrite E, Ed in S. exact S.
  - destruct (recover_err m col fns p e lo hi N B R1) as (a & cs & d & fn & G & I & Cu & E). destruct (in_play d) eqn:Pd. 2:{ unfold step, score_candidate in E. unfold in_play in Pd. destruct (d_ignore (c_inst d)); discriminate. }
    destruct (recover_ok m col fns (without p) p2 N' R2) as (lo' & hi' & B2 & _ & F). destruct (bounds_one _ lo hi lo' hi' B' B2) as [<- <-]. destruct (F a (filter in_play cs)) as (fn' & cs' & Cu' & _ & F2); [rewrite without_get, G; reflexivity|]. rewrite without_keys in Cu'. assert (fn' = fn) as -> by (apply (current_one fns (dkeys p) a); [apply dget_some_in; eauto|exact Cu'|exact Cu]).
    destruct (forall2_in_l _ _ _ F2 d ltac:(apply filter_In; auto)) as (d' & _ & Ed). pose proof (step_kept m V col fns p lo hi fn a d ltac:(exists cs; auto) Pd) as S. rewrite E, Ed in S. exact S. Qed.
Print Assumptions C166_ruled_out_partial.

(** Dropping a candidate that is ruled out doubles the control flow score of the one behind. *)
Theorem C166_ruled_out_refuted : exists p p1 p2 x y, NoDup (dkeys p) /\ recover default_model new_collector [(0, (0, 4))] p = Ok p1 /\ recover default_model new_collector [(0, (0, 4))] (without p) = Ok p2 /\
  option_map (map (fun c => dget (c_scores c) Kpcfg)) (dget p1 4) = Some [Some x] /\ option_map (map (fun c => dget (c_scores c) Kpcfg)) (dget p2 4) = Some [Some y] /\ (y == x * 2)%Q /\ (0 < x)%Q.
Proof. exists ex_ignored. do 4 eexists. split; [repeat constructor; cbn; intuition discriminate|]. split; [vm_compute; reflexivity|]. split; [vm_compute; reflexivity|]. split; [vm_compute; reflexivity|]. split; [vm_compute; reflexivity|]. split; vm_compute; reflexivity. Qed.
Print Assumptions C166_ruled_out_refuted.
(** Three candidates ruled out, one at an address of its own; two in play behind them. *)
Definition ex_out : cprogram := [(0, as_cand 61865985 0 false moveq_cap ++ as_cand 1 0 true cmp_cap); (4, as_cand 1 4 true cmp_cap); (8, as_cand 61865985 8 false moveq_cap ++ as_cand 7 8 true moveq_cap)].
Example C166_example : valid_model default_model /\ NoDup (dkeys ex_out) /\ map (fun kv => length (snd kv)) (without ex_out) = [1; 0; 1]%nat /\ (forall a, In a [0; 4; 8] -> ruled_out_at ex_out a) /\
  (exists p1 p2, recover default_model new_collector [(0, (0, 8))] ex_out = Ok p1 /\ recover default_model new_collector [(0, (0, 8))] (without ex_out) = Ok p2) /\
  exists c, In c (flat_map snd ex_ignored) /\ ruled_out_at ex_ignored 0 /\ condition_before ex_ignored 4 (c_inst c).
Proof. split; [exact default_valid|]. split; [repeat constructor; cbn; intuition discriminate|]. split; [reflexivity|]. split.
  { intros a [<-|[<-|[<-|[]]]]; eexists; (split; [eexists; split; [vm_compute; reflexivity|]|]); [right; left; reflexivity|reflexivity|left; reflexivity|reflexivity|right; left; reflexivity|reflexivity]. }
  split; [do 2 eexists; split; vm_compute; reflexivity|]. eexists. split; [vm_compute; right; right; left; reflexivity|]. split; [eexists; split; [eexists; split; [vm_compute; reflexivity|right; left; reflexivity]|reflexivity]|].
  split; [eexists; split; [eexists; split; [vm_compute; reflexivity|left; reflexivity]|split; reflexivity]|]. intros c (cs & G & I) Pc. vm_compute in G. injection G as <-. destruct I as [<-|[<-|[]]]; [|discriminate Pc]. vm_compute. intuition discriminate. Qed.
