(** Lemmas about the recuperator. *)
From Verif Require Import ListLemmas FlipModel FlipProofs InstModel MetaModel MetaSpec MetaProofs MetaProps RecModel RecSpec.
From Coq Require Import ZifyBool ZifyNat Permutation Sorted Lqa.

(** *** Rationals *)
Lemma qlt_iff a b : qlt a b = true <-> (a < b)%Q.
Proof. unfold qlt. rewrite negb_true_iff. split; intros H.
  - apply Qnot_le_lt. intros L. apply Qle_bool_iff in L. congruence.
  - apply not_true_iff_false. intros L. apply Qle_bool_iff in L. lra. Qed.
Lemma qlt_false a b : qlt a b = false <-> (b <= a)%Q.
Proof. unfold qlt. rewrite negb_false_iff. apply Qle_bool_iff. Qed.
Lemma qlt_spec a b : reflect (a < b)%Q (qlt a b).
Proof. destruct (qlt a b) eqn:E; constructor; [apply qlt_iff, E|]. apply qlt_false in E. lra. Qed.
Lemma qeq_spec a b : reflect (a == b)%Q (Qeq_bool a b).
Proof. destruct (Qeq_bool a b) eqn:E; constructor; [apply Qeq_bool_iff, E|]. intros H. apply Qeq_bool_iff in H. congruence. Qed.
Lemma qle_spec a b : reflect (a <= b)%Q (Qle_bool a b).
Proof. destruct (Qle_bool a b) eqn:E; constructor; [apply Qle_bool_iff, E|]. intros H. apply Qle_bool_iff in H. congruence. Qed.

Lemma prob_mult a b : prob a -> prob b -> prob (a * b).
Proof. unfold prob. intros [? ?] [? ?]. split; nra. Qed.
Lemma pos_mult a b : pos_prob a -> pos_prob b -> pos_prob (a * b).
Proof. unfold pos_prob. intros [? ?] [? ?]. split; nra. Qed.
Lemma pos_is_prob a : pos_prob a -> prob a.
Proof. unfold prob, pos_prob. intros [? ?]. split; lra. Qed.
Lemma qmin_prob a b : prob a -> prob b -> prob (qmin a b).
Proof. unfold qmin. destruct (qlt b a); auto. Qed.
Lemma qmax_prob a b : prob a -> prob b -> prob (qmax a b).
Proof. unfold qmax. destruct (qlt a b); auto. Qed.
Lemma qmax_pos a b : prob a -> pos_prob b -> pos_prob (qmax a b).
Proof. unfold qmax, prob, pos_prob. destruct (qlt_spec a b); intros; lra. Qed.
Lemma prob0 : prob 0. Proof. split; lra. Qed.
Lemma prob1 : prob 1. Proof. split; lra. Qed.

Lemma fraction a b : 0 <= a <= b -> 0 < b ->
  prob (inject_Z a / inject_Z b) /\ (0 < a -> pos_prob (inject_Z a / inject_Z b)) /\
  ((inject_Z a / inject_Z b == 1)%Q <-> a = b) /\ ((inject_Z a / inject_Z b == 0)%Q <-> a = 0).
Proof. intros H B.
  assert (P : (0 < inject_Z b)%Q) by (change 0%Q with (inject_Z 0); rewrite <- Zlt_Qlt; exact B).
  assert (L0 : (0 <= inject_Z a / inject_Z b)%Q) by (apply Qle_shift_div_l; [exact P|]; rewrite Qmult_0_l; change 0%Q with (inject_Z 0); rewrite <- Zle_Qle; lia).
  assert (L1 : (inject_Z a / inject_Z b <= 1)%Q) by (apply Qle_shift_div_r; [exact P|]; rewrite Qmult_1_l, <- Zle_Qle; lia).
  assert (M : (inject_Z a / inject_Z b * inject_Z b == inject_Z a)%Q) by (field; lra).
  split; [split; assumption|]. split; [|split].
  - intros A. split; [|exact L1]. apply Qlt_shift_div_l; [exact P|]. rewrite Qmult_0_l. change 0%Q with (inject_Z 0). rewrite <- Zlt_Qlt. exact A.
  - split; intros E.
    + rewrite E, Qmult_1_l in M. apply inject_Z_injective. symmetry. exact M.
    + subst b. field. lra.
  - split; intros E.
    + rewrite E, Qmult_0_l in M. apply inject_Z_injective. symmetry. exact M.
    + subst a. field. lra. Qed.

(** *** Counting originals and addresses *)
Definition addresses_of (f : dinst -> bool) (p : cprogram) : nat :=
  length (filter (fun kv => existsb (fun c => negb (d_ignore (c_inst c)) && f (c_inst c)) (snd kv)) p).

Lemma number_plain f p : number_of_addresses f (plain p) = Z.of_nat (addresses_of f p).
Proof. unfold number_of_addresses, addresses_of, plain. f_equal. induction p as [|[a cs] p IH]; [reflexivity|]. cbn [map filter fst snd].
  assert (E : at_least_one f (map c_inst cs) = existsb (fun c => negb (d_ignore (c_inst c)) && f (c_inst c)) cs).
  { unfold at_least_one, kept. clear. induction cs as [|c cs IH]; [reflexivity|]. cbn [map filter existsb]. destruct (d_ignore (c_inst c)); cbn [negb andb orb existsb]; rewrite IH; reflexivity. }
  rewrite E. destruct (existsb _ cs); cbn [length]; rewrite IH; reflexivity. Qed.

Lemma dget_iff_in {A} (d : dict A) k v : NoDup (dkeys d) -> dget d k = Some v <-> In (k, v) d.
Proof. intros N. split; [apply dget_in|apply dget_nodup_in, N]. Qed.

Lemma has_addresses f p a : NoDup (dkeys p) ->
  In a (map fst (filter (fun kv => existsb (fun c => negb (d_ignore (c_inst c)) && f (c_inst c)) (snd kv)) p)) <->
  exists c, candidate p a c /\ d_ignore (c_inst c) = false /\ f (c_inst c) = true.
Proof. intros N. rewrite in_map_iff. split.
  - intros ([a' cs] & <- & H). apply filter_In in H. destruct H as [H E]. cbn [fst snd] in *. apply existsb_exists in E. destruct E as (c & Hc & E).
    apply andb_true_iff in E. destruct E as [E1 E2]. apply negb_true_iff in E1. exists c. split; [|auto]. exists cs. split; [apply dget_iff_in; assumption|exact Hc].
  - intros (c & (cs & G & Hc) & E1 & E2). exists (a, cs). split; [reflexivity|]. apply filter_In. split; [apply dget_in, G|]. cbn [snd].
    apply existsb_exists. exists c. split; [exact Hc|]. rewrite E1, E2. reflexivity. Qed.

Lemma nodup_filter_keys {A} (g : Z * A -> bool) (d : dict A) : NoDup (dkeys d) -> NoDup (map fst (filter g d)).
Proof. unfold dkeys. induction d as [|kv d IH]; cbn [map filter]; intros N; [constructor|]. inversion N as [|? ? N1 N2]; subst. destruct (g kv); [|auto].
  cbn [map]. constructor; [|auto]. intros H. apply N1. apply in_map_iff in H. destruct H as (x & E & Hx). apply filter_In in Hx. rewrite <- E. apply in_map, Hx. Qed.
Lemma nodup_filter_map {A} (g : A -> bool) (h : A -> Z) l : NoDup (map h l) -> NoDup (map h (filter g l)).
Proof. induction l as [|x l IH]; cbn [map filter]; intros N; [constructor|]. inversion N as [|? ? N1 N2]; subst. destruct (g x); [|auto].
  cbn [map]. constructor; [|auto]. intros H. apply N1. apply in_map_iff in H. destruct H as (y & E & Hy). apply filter_In in Hy. rewrite <- E. apply in_map, Hy. Qed.

Lemma nodup_length_eq (l l' : list Z) : NoDup l -> incl l l' -> (length l' <= length l)%nat -> incl l' l.
Proof. intros N I L. apply NoDup_length_incl; [exact N|lia|exact I]. Qed.

Section Counts.
Context (orig : list dinst) (p : cprogram) (HO : has_original orig p).

Lemma share_incl f : incl (map d_addr (filter f orig)) (map fst (filter (fun kv => existsb (fun c => negb (d_ignore (c_inst c)) && f (c_inst c)) (snd kv)) p)).
Proof. destruct HO as (N1 & N2 & H1 & H2). intros a Ha. apply in_map_iff in Ha. destruct Ha as (o & <- & Ho). apply filter_In in Ho. destruct Ho as [Ho Ef].
  apply has_addresses; [exact N2|]. destruct (H1 o Ho) as (I & _ & c & Hc & <-). exists c. auto. Qed.

Lemma share_le f : (number_with f orig <= addresses_of f p)%nat.
Proof. destruct HO as (N1 & N2 & H1 & H2). unfold number_with, addresses_of. rewrite <- (map_length d_addr (filter f orig)).
  rewrite <- (map_length fst (filter _ p)). apply NoDup_incl_length; [apply nodup_filter_map, N1|apply share_incl]. Qed.

Lemma addr_inj o o' : In o orig -> In o' orig -> d_addr o = d_addr o' -> o = o'.
Proof. destruct HO as (N1 & _). clear HO. revert N1. induction orig as [|x l IH]; [intros _ []|]. cbn [map]. intros N. inversion N as [|? ? Nx N']; subst.
  intros [->|H] [->|H'] E; [reflexivity| | |apply IH; assumption]; exfalso; apply Nx; [rewrite E|rewrite <- E]; apply in_map; assumption. Qed.

Lemma certain_iff f : certain orig p f <-> number_with f orig = addresses_of f p.
Proof. pose proof HO as (N1 & N2 & H1 & H2). pose proof (share_le f) as L. split.
  - intros C. apply Nat.le_antisymm; [exact L|]. unfold number_with, addresses_of. rewrite <- (map_length d_addr (filter f orig)), <- (map_length fst (filter _ p)).
    apply NoDup_incl_length; [apply nodup_filter_keys, N2|]. intros a Ha. apply has_addresses in Ha; [|exact N2]. destruct Ha as (c & Hc & E1 & E2).
    pose proof Hc as (cs & G & _). assert (Ha : In a (dkeys p)) by (apply dget_some_in; eauto). destruct (H2 a Ha) as (o & Ho & Ea).
    apply in_map_iff. exists o. split; [exact Ea|]. apply filter_In. split; [exact Ho|]. eapply C; eauto.
  - intros E a c Hc E1 E2 o Ho Ea. assert (I : In a (map d_addr (filter f orig))).
    { apply (nodup_length_eq _ (map fst (filter (fun kv => existsb (fun c => negb (d_ignore (c_inst c)) && f (c_inst c)) (snd kv)) p))); [apply nodup_filter_map, N1|apply share_incl| |apply has_addresses; [exact N2|exists c; auto]].
      rewrite !map_length. unfold number_with, addresses_of in E. lia. }
    apply in_map_iff in I. destruct I as (o' & Eo & Ho'). apply filter_In in Ho'. destruct Ho' as [Ho' Ef].
    rewrite (addr_inj o o') by (try assumption; congruence). exact Ef. Qed.

Lemma possible_iff f : possible orig f <-> (0 < number_with f orig)%nat.
Proof. unfold possible, number_with. split.
  - intros (o & Ho & E). assert (I : In o (filter f orig)) by (apply filter_In; auto). destruct (filter f orig); [destruct I|cbn; lia].
  - destruct (filter f orig) as [|o l] eqn:E; [cbn; lia|]. intros _. exists o. apply filter_In. rewrite E. left; reflexivity. Qed.

Lemma kept_orig : kept orig = orig.
Proof. destruct HO as (_ & _ & H1 & _). unfold kept. assert (G : forall l, (forall o, In o l -> d_ignore o = false) -> filter (fun i => negb (d_ignore i)) l = l).
  { clear. induction l as [|o l IH]; intros H; [reflexivity|]. cbn [filter]. rewrite (H o) by (left; reflexivity). cbn [negb]. f_equal. apply IH. intros; apply H; right; assumption. }
  apply G. intros o Ho. apply H1, Ho. Qed.

Lemma occurrences_number s : occurrences s orig = Z.of_nat (number_with (uses s) orig).
Proof. unfold occurrences. rewrite kept_orig. destruct HO as (_ & _ & H1 & _). f_equal. unfold number_with.
  assert (G : forall l, (forall o, In o l -> NoDup (d_used o)) -> count_occ Z.eq_dec (flat_map d_used l) s = length (filter (uses s) l)).
  { clear. induction l as [|o l IH]; intros H; [reflexivity|]. cbn [flat_map filter]. rewrite count_occ_app, IH by (intros; apply H; right; assumption).
    unfold uses at 2. pose proof (proj1 (NoDup_count_occ Z.eq_dec (d_used o)) (H o ltac:(left; reflexivity)) s) as N.
    destruct (in_dec Z.eq_dec s (d_used o)) as [I|I].
    - pose proof (proj1 (count_occ_In Z.eq_dec _ _) I). cbn [length]. lia.
    - apply (count_occ_not_In Z.eq_dec) in I. lia. }
  apply G. intros o Ho. apply H1, Ho. Qed.

Let col := collect new_collector orig.
Let w := collect_program (mkWith [] [] []) (plain p).

(** A share: number of originals over number of addresses. *)
Definition share (f : dinst -> bool) : Q := (inject_Z (Z.of_nat (number_with f orig)) / inject_Z (Z.of_nat (addresses_of f p)))%Q.

Lemma present f a c : candidate p a c -> d_ignore (c_inst c) = false -> f (c_inst c) = true -> (0 < addresses_of f p)%nat.
Proof. intros Hc E1 E2. destruct HO as (_ & N2 & _). assert (I : In a (map fst (filter (fun kv => existsb (fun c => negb (d_ignore (c_inst c)) && f (c_inst c)) (snd kv)) p))) by (apply has_addresses; eauto).
  unfold addresses_of. rewrite <- (map_length fst). destruct (map fst _); [destruct I|cbn; lia]. Qed.

Lemma ratio_share (have among : dict Z) k f : (0 < addresses_of f p)%nat -> dget have k = entry_for (Z.of_nat (number_with f orig)) ->
  dget among k = entry_for (Z.of_nat (addresses_of f p)) ->
  (possible orig f -> ratio have among k = Ok (share f)) /\ (~ possible orig f -> ratio have among k = Err KeyError).
Proof. intros P H A. unfold ratio, dget_r. rewrite H, A. unfold entry_for. rewrite possible_iff. split; intros Q0.
  - replace (Z.of_nat (number_with f orig) =? 0) with false by lia. replace (Z.of_nat (addresses_of f p) =? 0) with false by lia. cbn [bind].
    unfold quot. replace (Z.of_nat (addresses_of f p) =? 0) with false by lia. reflexivity.
  - replace (Z.of_nat (number_with f orig) =? 0) with true by lia. reflexivity. Qed.

Lemma share_prob f : (0 < addresses_of f p)%nat -> prob (share f) /\ ((share f == 1)%Q <-> certain orig p f) /\ (possible orig f -> pos_prob (share f)) /\ ((share f == 0)%Q <-> ~ possible orig f).
Proof. intros P. pose proof (share_le f) as L. destruct (fraction (Z.of_nat (number_with f orig)) (Z.of_nat (addresses_of f p)) ltac:(lia) ltac:(lia)) as (A & B & C & D).
  split; [exact A|]. split; [rewrite certain_iff; etransitivity; [apply C|]; lia|]. split; [rewrite possible_iff; intros; apply B; lia|].
  rewrite possible_iff. etransitivity; [apply D|]. lia. Qed.

Lemma cond_share i : (0 < addresses_of (same_cond i) p)%nat -> exists q, or_zero (ratio (condition_count col) (with_cond w) (d_cond i)) = Ok q /\ (q == share (same_cond i))%Q.
Proof. intros P. destruct (ratio_share (condition_count col) (with_cond w) (d_cond i) (same_cond i) P) as [A B].
  - pose proof (C34_counts [orig] (d_cond i)) as (H & _). cbn [fold_left concat] in H. rewrite app_nil_r in H. fold col in H. rewrite H. unfold how_many. rewrite kept_orig. reflexivity.
  - pose proof (C37_addresses (mkWith [] [] []) (plain p) (d_cond i)) as (H & _). fold w in H. rewrite H, number_plain. reflexivity.
  - destruct (Nat.eq_dec (number_with (same_cond i) orig) 0) as [E|E].
    + rewrite B by (rewrite possible_iff; lia). exists 0%Q. split; [reflexivity|]. symmetry. apply (share_prob _ P). rewrite possible_iff. lia.
    + rewrite A by (rewrite possible_iff; lia). exists (share (same_cond i)). split; reflexivity. Qed.
Lemma op_share i : (0 < addresses_of (same_op i) p)%nat -> exists q, or_zero (ratio (instruction_count col) (with_op w) (d_op i)) = Ok q /\ (q == share (same_op i))%Q.
Proof. intros P. destruct (ratio_share (instruction_count col) (with_op w) (d_op i) (same_op i) P) as [A B].
  - pose proof (C34_counts [orig] (d_op i)) as (_ & H & _). cbn [fold_left concat] in H. rewrite app_nil_r in H. fold col in H. rewrite H. unfold how_many. rewrite kept_orig. reflexivity.
  - pose proof (C37_addresses (mkWith [] [] []) (plain p) (d_op i)) as (_ & H & _). fold w in H. rewrite H, number_plain. reflexivity.
  - destruct (Nat.eq_dec (number_with (same_op i) orig) 0) as [E|E].
    + rewrite B by (rewrite possible_iff; lia). exists 0%Q. split; [reflexivity|]. symmetry. apply (share_prob _ P). rewrite possible_iff. lia.
    + rewrite A by (rewrite possible_iff; lia). exists (share (same_op i)). split; reflexivity. Qed.

Lemma reg_ratio s : (0 < addresses_of (uses s) p)%nat ->
  (possible orig (uses s) -> ratio (storage_count col) (with_reg w) s = Ok (share (uses s))) /\ (~ possible orig (uses s) -> ratio (storage_count col) (with_reg w) s = Err KeyError).
Proof. intros P. apply ratio_share; [exact P| |].
  - pose proof (C34_counts [orig] s) as (_ & _ & H). cbn [fold_left concat] in H. rewrite app_nil_r in H. fold col in H. rewrite H, occurrences_number. reflexivity.
  - pose proof (C37_addresses (mkWith [] [] []) (plain p) s) as (_ & _ & H). fold w in H. rewrite H. change (fun i => if in_dec Z.eq_dec s (d_used i) then true else false) with (uses s). rewrite number_plain. reflexivity. Qed.

Lemma reg_fold l : (forall s, In s l -> (0 < addresses_of (uses s) p)%nat) -> forall av, prob av ->
  let r := foldM (fun av r => let* q := ratio (storage_count col) (with_reg w) r in Ok (qmin av q)) l av in
  ((forall s, In s l -> possible orig (uses s)) -> exists q, r = Ok q /\ prob q /\ ((q == 1)%Q <-> (av == 1)%Q /\ forall s, In s l -> certain orig p (uses s)) /\ (pos_prob av -> pos_prob q)) /\
  ((exists s, In s l /\ ~ possible orig (uses s)) -> r = Err KeyError).
Proof. cbv zeta. induction l as [|s l IH]; intros Pr av Hav; cbn [foldM].
  - split; [|intros (s & [] & _)]. intros _. exists av. split; [reflexivity|]. split; [exact Hav|]. split; [|auto]. split; [|tauto]. intros; split; [assumption|intros s []].
  - destruct (reg_ratio s (Pr s ltac:(left; reflexivity))) as [A B]. destruct (share_prob (uses s) (Pr s ltac:(left; reflexivity))) as (S1 & S2 & S3 & _).
    destruct (Nat.eq_dec (number_with (uses s) orig) 0) as [E|E].
    + assert (NP : ~ possible orig (uses s)) by (rewrite possible_iff; lia). rewrite B by exact NP. cbn [bind]. split; [|reflexivity]. intros H. exfalso. apply NP, H. left; reflexivity.
    + assert (PP : possible orig (uses s)) by (rewrite possible_iff; lia). rewrite A by exact PP. cbn [bind].
      destruct (IH (fun s' H => Pr s' (or_intror H)) (qmin av (share (uses s))) (qmin_prob _ _ Hav S1)) as [C D]. split.
      * intros H. destruct C as (q & Eq & C1 & C2 & C3); [intros; apply H; right; assumption|]. exists q. split; [exact Eq|]. split; [exact C1|]. specialize (S3 PP). split.
        -- rewrite C2. unfold qmin. clear - S1 S2 Hav. unfold prob in *. destruct (qlt_spec (share (uses s)) av) as [L|L].
           ++ split; [intros [X _]; lra|]. intros [X Y]. assert (share (uses s) == 1)%Q by (apply S2, Y; left; reflexivity). lra.
           ++ split.
              ** intros [X Y]. split; [exact X|]. intros s' [<-|H']; [apply S2; lra|apply Y, H'].
              ** intros [X Y]. split; [exact X|]. intros s' H'. apply Y. right; exact H'.
        -- intros Pav. apply C3. unfold qmin. destruct (qlt (share (uses s)) av); assumption.
      * intros (s' & [<-|H'] & N'); [contradiction|]. apply D. exists s'. auto. Qed.
End Counts.
