(** C148: what a pass of the recovery says about the condition, the opcode and the storages
    of a candidate. *)
From Verif Require Import ListLemmas FlipModel FlipProofs InstModel MetaModel MetaSpec MetaProps RecModel RecSpec RecProofs RecProofs2 RecProofs3 RecProps OutcomeProps StackProps ReachProps NeighbourProps.
From Coq Require Import ZifyBool ZifyNat Lqa.

(** ** Specification *)
(** The number of addresses with a candidate that is not ignored and satisfies [f]. *)
Definition offering (p : cprogram) (f : dinst -> bool) : Z := Z.of_nat (length (filter (fun kv => existsb (fun c => negb (d_ignore (c_inst c)) && f (c_inst c)) (snd kv)) p)).
(** How often in the original, for each address where it could be. *)
Definition per_address (n : Z) (p : cprogram) (f : dinst -> bool) : Q := (inject_Z n / inject_Z (offering p f))%Q.
Definition least_of (q : Q) (l : list Q) : Prop := (exists x, In x l /\ (q == x)%Q) /\ forall x, In x l -> (q <= x)%Q.
Definition storage_share (orig : list dinst) (p : cprogram) (r : Z) : Q := per_address (occurrences r orig) p (fun j => existsb (Z.eqb r) (d_used j)).

(** *** Proof *)
Lemma filter_len_ext {A} (f g : A -> bool) l : (forall x, f x = g x) -> length (filter f l) = length (filter g l).
Proof. intros E. induction l as [|x l IH]; [reflexivity|]. cbn [filter]. rewrite E. destruct (g x); cbn [length]; congruence. Qed.
Lemma offering_plain p f g : (forall j, f j = g j) -> number_of_addresses f (plain p) = offering p g.
Proof. intros E. rewrite number_plain. unfold offering, addresses_of. f_equal. apply filter_len_ext. intros kv. induction (snd kv) as [|c l IH]; [reflexivity|]. cbn [existsb]. now rewrite IH, E. Qed.
Lemma existsb_in_dec k l : (if in_dec Z.eq_dec k l then true else false) = existsb (Z.eqb k) l.
Proof. destruct (in_dec Z.eq_dec k l) as [I|N]; symmetry; [apply existsb_exists; exists k; split; [exact I|lia]|]. destruct (existsb (Z.eqb k) l) eqn:E; [|reflexivity]. apply existsb_exists in E as (x & I & E). assert (x = k) as -> by lia. contradiction. Qed.
Lemma offering_pos p f a c : NoDup (dkeys p) -> candidate p a c -> d_ignore (c_inst c) = false -> f (c_inst c) = true -> 0 < offering p f.
Proof.
  intros N (cs & G & I) Ig F. unfold offering. apply dget_iff_in in G; [|exact N]. assert (X : In (a, cs) (filter (fun kv => existsb (fun c => negb (d_ignore (c_inst c)) && f (c_inst c)) (snd kv)) p)).
  { apply filter_In. split; [exact G|]. apply existsb_exists. exists c. split; [exact I|]. now rewrite Ig, F. }
  destruct (filter _ p); [destruct X|cbn [length]; lia].
Qed.
Lemma occurrences_nonneg r l : 0 <= occurrences r l.
Proof. unfold occurrences. lia. Qed.
Lemma ratio_per (have among : dict Z) k n p f : 0 < offering p f -> dget have k = entry_for n -> dget among k = entry_for (offering p f) -> 
  (n <> 0 /\ ratio have among k = Ok (per_address n p f)) \/ (n = 0 /\ ratio have among k = Err KeyError).
Proof.
  intros P H A. unfold ratio, dget_r. rewrite H, A. unfold entry_for. replace (offering p f =? 0) with false by lia. destruct (n =? 0) eqn:E; [right; split; [lia|reflexivity]|left; split; [lia|]]. cbn [bind]. unfold quot. replace (offering p f =? 0) with false by lia. reflexivity.
Qed.
Lemma per_zero p f : (per_address 0 p f == 0)%Q.
Proof. unfold per_address. change (inject_Z 0) with 0%Q. unfold Qdiv. ring. Qed.
Lemma per_nonneg n p f : 0 <= n -> 0 < offering p f -> (0 <= per_address n p f)%Q.
Proof. intros N P. unfold per_address. apply Qle_shift_div_l; [change 0%Q with (inject_Z 0); rewrite <- Zlt_Qlt; exact P|]. rewrite Qmult_0_l. change 0%Q with (inject_Z 0). rewrite <- Zle_Qle. exact N. Qed.
Lemma or_zero_per (have among : dict Z) k n p f q : 0 < offering p f -> dget have k = entry_for n -> dget among k = entry_for (offering p f) -> or_zero (ratio have among k) = Ok q -> (q == per_address n p f)%Q.
Proof. intros P H A E. destruct (ratio_per have among k n p f P H A) as [[N R]|[-> R]]; rewrite R in E; cbn [or_zero] in E; [assert (q = per_address n p f) as -> by congruence; reflexivity|assert (q = 0%Q) as -> by congruence; symmetry; apply per_zero]. Qed.
Lemma storages_fold (col : collector) (w : addresses_with) orig p : (forall r, dget (storage_count col) r = entry_for (occurrences r orig)) -> (forall r, dget (with_reg w) r = entry_for (offering p (fun j => existsb (Z.eqb r) (d_used j)))) ->
  forall l q0 q, (forall r, In r l -> 0 < offering p (fun j => existsb (Z.eqb r) (d_used j))) -> (0 <= q0)%Q ->
  or_zero (foldM (fun av r => let* q := ratio (storage_count col) (with_reg w) r in Ok (qmin av q)) l q0) = Ok q -> least_of q (q0 :: map (storage_share orig p) l).
Proof.
  intros HC HW. induction l as [|r l IH]; intros q0 q Pr N0 E; cbn [foldM] in E.
  - cbn [or_zero] in E. assert (q = q0) as -> by congruence. split; [exists q0; split; [left; reflexivity|reflexivity]|]. intros x [<-|[]]. lra.
  - assert (P : 0 < offering p (fun j => existsb (Z.eqb r) (d_used j))) by (apply Pr; left; reflexivity). pose proof (ratio_per _ _ r _ p _ P (HC r) (HW r)) as R.
    assert (Sn : (0 <= storage_share orig p r)%Q) by (apply per_nonneg; [apply occurrences_nonneg|exact P]). destruct R as [[N R]|[Z R]]; rewrite R in E; cbn [bind] in E.
    + change (per_address (occurrences r orig) p (fun j => existsb (Z.eqb r) (d_used j))) with (storage_share orig p r) in E. destruct (qmin_spec q0 (storage_share orig p r)) as (M & L1 & L2). apply IH in E; [|intros x I; apply Pr; right; exact I|destruct M as [->| ->]; assumption]. destruct E as [(x & I & Ex) L]. split.
      * destruct I as [<-|I]; [|exists x; cbn; auto]. destruct M as [M|M]; rewrite M in Ex; [exists q0; cbn; auto|exists (storage_share orig p r); cbn; auto].
      * pose proof (L _ (or_introl eq_refl)) as Lm. intros y [<-|[<-|I']]; [lra|lra|]. apply L. right. exact I'.
    + cbn [or_zero] in E. assert (q = 0%Q) as -> by congruence. assert (Z' : (storage_share orig p r == 0)%Q) by (unfold storage_share; rewrite Z; apply per_zero). split; [exists (storage_share orig p r); split; [cbn; auto|symmetry; exact Z']|].
      intros y [<-|[<-|I]]; [exact N0|lra|]. apply in_map_iff in I as (r' & <- & I). apply per_nonneg; [apply occurrences_nonneg|apply Pr; right; exact I].
Qed.
(** The passes behind leave the first three entries alone. *)
Lemma first_scores m col w fns prog lo hi fn a first c c' : score_candidate m col w fns prog lo hi fn a first c = Ok c' -> d_ignore (c_inst c) = false ->
  exists s1 s2 s3, compute_conditional col w (c_inst c) (c_scores c) = Ok s1 /\ compute_opcode col w (c_inst c) s1 = Ok s2 /\ compute_registers col w (c_inst c) s2 = Ok s3 /\
    forall k, k = Kpc \/ k = Kpo \/ k = Kpr -> dget (c_scores c') k = dget s3 k.
Proof.
  intros E Ig. unfold score_candidate in E. rewrite Ig in E.
  destruct (compute_conditional _ _ _ _) as [s1|] eqn:E1; cbn [bind] in E; [|discriminate].
  destruct (compute_opcode _ _ _ _) as [s2|] eqn:E2; cbn [bind] in E; [|discriminate].
  destruct (compute_registers _ _ _ _) as [s3|] eqn:E3; cbn [bind] in E; [|discriminate].
  destruct (compute_push_pop _ _ _ _ _ _ _) as [s4|] eqn:E4; cbn [bind] in E; [|discriminate].
  destruct (compute_branch_address _ _ _ _ _ _ _) as [s5|] eqn:E5; cbn [bind] in E; [|discriminate].
  exists s1, s2, s3. split; [reflexivity|]. split; [exact E2|]. split; [exact E3|]. intros k K.
  assert (Other : forall s k' q, k' = Kpopu \/ k' = Kpbd \/ k' = Kprd \/ k' = Kpcfg -> dget (dset s k' q : scores) k = dget s k) by (intros s k' q [->|[->|[->| ->]]]; destruct K as [->|[->| ->]]; apply dget_dset_other; discriminate).
  assert (Fi : forall p b p1 p2 e s', finish_push_pop m p b s3 p1 p2 e = Ok s' -> dget s' k = dget s3 k).
  { intros p b p1 p2 e s' X. unfold finish_push_pop in X. destruct (dget_r p b); cbn [bind] in X; [|discriminate]. destruct (quot _ _); cbn [bind] in X; [|discriminate]. injection X as <-. apply Other. auto. }
  assert (X4 : dget s4 k = dget s3 k).
  { unfold compute_push_pop in E4. cbv zeta in E4. destruct (d_kind (c_inst c)); [destruct (dget fns a) as [[? ?]|]| |congruence].
    - destruct (op_prob _ _ _ _) as [[p1 e]|]; cbn [bind] in E4; [|discriminate]. destruct (walk_down _ _ _ _ _ _); cbn [bind] in E4; [|discriminate]. exact (Fi _ _ _ _ _ _ E4).
    - exact (Fi _ _ _ _ _ _ E4).
    - destruct (op_prob _ _ _ _) as [[p1 e]|]; cbn [bind] in E4; [|discriminate]. exact (Fi _ _ _ _ _ _ E4). }
  assert (X5 : dget s5 k = dget s4 k).
  { unfold compute_branch_address in E5. destruct (d_ignore (c_inst c) || negb (d_branch (c_inst c))); [congruence|]. destruct (d_jump (c_inst c)) as [j|]; [|injection E5 as <-; apply Other; auto].
    destruct (if fn <=? j then _ else _) as [here|]; cbn [bind] in E5; [|discriminate]. destruct here; [|destruct (dmem fns j); [|destruct ((hi <? j) || (j <? lo))]]; injection E5 as <-; apply Other; auto. }
  rewrite <- X4, <- X5. destruct first; cbn [bind] in E; [injection E as <-; reflexivity|]. destruct (compute_cfg _ _ _ _ _) as [s6|] eqn:E6; cbn [bind] in E; [|discriminate]. injection E as <-. cbn [c_scores].
  destruct (cfg_key _ _ _ _ _ _ E6) as (q & ->). rewrite Other by auto. unfold compute_register_distance. destruct (_ || _); [reflexivity|apply Other; auto].
Qed.

(** ** C148 *)
Theorem C148_shares : forall m originals fns p p', NoDup (dkeys p) -> recover m (fold_left collect originals new_collector) fns p = Ok p' ->
  forall a cs, dget p a = Some cs -> exists cs', dget p' a = Some cs' /\
    Forall2 (fun c c' => let i := c_inst c in let orig := concat originals in
      (d_ignore i = true -> c' = c) /\
      (d_ignore i = false ->
        (exists q, dget (c_scores c') Kpc = Some q /\ (q == per_address (how_many (fun j => (d_cond j =? d_cond i)%Z) orig) p (fun j => (d_cond j =? d_cond i)%Z))%Q) /\
        (exists q, dget (c_scores c') Kpo = Some q /\ (q == per_address (how_many (fun j => (d_op j =? d_op i)%Z) orig) p (fun j => (d_op j =? d_op i)%Z))%Q) /\
        (d_branch i = false /\ d_kind i = KOther -> exists q, dget (c_scores c') Kpr = Some q /\ least_of q (1%Q :: map (storage_share orig p) (d_used i))) /\
        (d_branch i = true \/ d_kind i <> KOther -> dget (c_scores c') Kpr = dget (c_scores c) Kpr))) cs cs'.
Proof.
  intros m originals fns p p' N H a cs G. destruct (recover_spec m (fold_left collect originals new_collector) fns p N) as [B _]. destruct (B p' H) as (lo & hi & Hlo & Hlo' & _ & _ & _ & F). destruct (F a cs G) as (fn & first & cs' & Cf & Hf & G' & F2). exists cs'. split; [exact G'|].
  set (col := fold_left collect originals new_collector) in *. set (w := collect_program (mkWith [] [] []) (plain p)) in *.
  assert (F3 : Forall2 (fun c c' => In c cs /\ score_candidate m col w fns (plain p) lo hi fn a first c = Ok c') cs cs').
  { clear - F2. assert (X : forall c, In c cs -> In c cs) by auto. revert X. generalize cs at 2 3 as all. intros all X. induction F2 as [|c c' l l' E F2 IH]; constructor; [split; [apply X; left; reflexivity|exact E]|]. apply IH. intros c0 I. apply X. right. exact I. }
  refine (Forall2_weaken _ _ _ _ _ F3). clear F2 F3. intros c c' [I E]. cbv zeta. destruct (d_ignore (c_inst c)) eqn:Ig; [unfold score_candidate in E; rewrite Ig in E; split; [congruence|discriminate]|]. split; [discriminate|]. intros _.
  destruct (first_scores _ _ _ _ _ _ _ _ _ _ _ _ E Ig) as (s1 & s2 & s3 & E1 & E2 & E3 & K). assert (Cc : candidate p a c) by (exists cs; auto). clear E.
  unfold compute_conditional in E1. destruct (or_zero _) as [q1|] eqn:Q1; cbn [bind] in E1; [|discriminate]. assert (s1 = dset (c_scores c) Kpc q1) as -> by congruence. clear E1.
  unfold compute_opcode in E2. destruct (or_zero _) as [q2|] eqn:Q2 in E2; cbn [bind] in E2; [|discriminate]. assert (s2 = dset (dset (c_scores c) Kpc q1) Kpo q2) as -> by congruence. clear E2.
  assert (V1 : (q1 == per_address (how_many (fun j => d_cond j =? d_cond (c_inst c)) (concat originals)) p (fun j => d_cond j =? d_cond (c_inst c)))%Q).
  { refine (or_zero_per _ _ _ _ _ _ _ _ _ _ Q1); [apply (offering_pos p _ a c N Cc Ig); lia|apply (C34_counts originals)|]. destruct (C37_addresses (mkWith [] [] []) (plain p) (d_cond (c_inst c))) as (X & _). fold w in X. rewrite X. f_equal. apply offering_plain. reflexivity. }
  assert (V2 : (q2 == per_address (how_many (fun j => d_op j =? d_op (c_inst c)) (concat originals)) p (fun j => d_op j =? d_op (c_inst c)))%Q).
  { refine (or_zero_per _ _ _ _ _ _ _ _ _ _ Q2); [apply (offering_pos p _ a c N Cc Ig); lia|apply (C34_counts originals)|]. destruct (C37_addresses (mkWith [] [] []) (plain p) (d_op (c_inst c))) as (_ & X & _). fold w in X. rewrite X. f_equal. apply offering_plain. reflexivity. }
  unfold compute_registers in E3. destruct (d_branch (c_inst c) || pushpop (c_inst c)) eqn:Eb.
  - assert (s3 = dset (dset (c_scores c) Kpc q1) Kpo q2) as -> by congruence. split; [exists q1; split; [rewrite K, dget_dset_other, dget_dset_same by (auto; discriminate); reflexivity|exact V1]|].
    split; [exists q2; split; [rewrite K, dget_dset_same by auto; reflexivity|exact V2]|]. rewrite pushpop_kind in Eb. split; [intros [X1 X2]; rewrite X1, X2 in Eb; discriminate|]. intros _. rewrite K by auto. rewrite !dget_dset_other by discriminate. reflexivity.
  - destruct (or_zero _) as [q3|] eqn:Q3 in E3; cbn [bind] in E3; [|discriminate]. assert (s3 = dset (dset (dset (c_scores c) Kpc q1) Kpo q2) Kpr q3) as -> by congruence. split; [exists q1; split; [rewrite K by auto; rewrite !dget_dset_other by discriminate; apply dget_dset_same|exact V1]|].
    split; [exists q2; split; [rewrite K by auto; rewrite dget_dset_other by discriminate; apply dget_dset_same|exact V2]|]. split.
    + intros _. exists q3. split; [rewrite K by auto; apply dget_dset_same|]. refine (storages_fold col w (concat originals) p _ _ _ _ _ _ _ Q3); [intros r; apply (C34_counts originals)| |intros r Ir; apply (offering_pos p _ a c N Cc Ig); apply existsb_exists; exists r; split; [exact Ir|lia]|lra].
      intros r. destruct (C37_addresses (mkWith [] [] []) (plain p) r) as (_ & _ & X). fold w in X. rewrite X. f_equal. apply offering_plain. intros j. apply existsb_in_dec.
    + intros X. rewrite pushpop_kind in Eb. destruct X as [X|X]; [rewrite X in Eb; discriminate|destruct (d_kind (c_inst c)); [destruct (d_branch _); discriminate|destruct (d_branch _); discriminate|congruence]].
Qed.
Print Assumptions C148_shares.
(** Storage 4 is used four times in the original, and by candidates at all five addresses. *)
Definition ex_shares : cprogram := [(0, [setter 0; bystander 0]); (4, [bystander 4; getter 4]); (8, [getter 8]); (12, [setter 12]); (16, [getter 16])].
Definition plain_list (p : cprogram) : list dinst := map (fun c => c_inst c) (flat_map snd p).
Example C148_example : NoDup (dkeys ex_shares) /\ (storage_share (plain_list ex_reach) ex_shares 4 == 4 # 5)%Q /\ (storage_share (plain_list ex_reach) ex_shares 5 == 3 # 4)%Q /\ (per_address (how_many (fun j => d_op j =? 22) (plain_list ex_reach)) ex_shares (fun j => d_op j =? 22) == 2 # 3)%Q /\
  exists p' q1 q2 q3, recover default_model (fold_left collect [plain_list ex_reach] new_collector) [(0, (0, 16))] ex_shares = Ok p' /\
    option_map (map (fun c => (dget (c_scores c) Kpc, dget (c_scores c) Kpo, dget (c_scores c) Kpr))) (dget p' 8) = Some [(Some q1, Some q2, Some q3)] /\ (q1 == 1)%Q /\ (q2 == 2 # 3)%Q /\ (q3 == 3 # 4)%Q.
Proof.
  split; [repeat constructor; cbn; lia|]. do 3 (split; [vm_compute; reflexivity|]). do 4 eexists. split; [vm_compute; reflexivity|]. split; [vm_compute; reflexivity|]. split; [|split]; vm_compute; reflexivity.
Qed.
