(** C146: what a pass of the recovery says about the storages an instruction reads. *)
From Verif Require Import ListLemmas FlipModel FlipProofs InstModel MetaModel MetaSpec RecModel RecSpec RecProofs RecProofs2 RecProofs3 RecProps StackProps.
From Coq Require Import ZifyBool ZifyNat Lqa Sorted.

(** ** Specification *)
(** The candidates at [x] that are not ignored; the share of them that do not write [r]. *)
Definition live (p : cprogram) (x : Z) : list dinst := match dget p x with Some cs => filter (fun i => negb (d_ignore i)) (map c_inst cs) | None => [] end.
Definition writes_storage (r : Z) (i : dinst) : bool := existsb (Z.eqb r) (d_written i).
Definition unwritten (p : cprogram) (r x : Z) : Q := (inject_Z (Z.of_nat (length (filter (fun i => negb (writes_storage r i)) (live p x)))) / inject_Z (Z.of_nat (length (live p x))))%Q.
(** The addresses from [lo] to [hi], which is left out, that have such candidates. *)
Definition window (p : cprogram) (lo hi : Z) (l : list Z) : Prop := StronglySorted Z.lt l /\ forall x, In x l <-> lo <= x < hi /\ live p x <> [].
(** Nothing on the way writes [r], the choices being independent. *)
Definition all_unwritten (p : cprogram) (r : Z) (l : list Z) : Q := fold_right (fun x q => unwritten p r x * q)%Q 1%Q l.
(** Where a value read at [a] should have been written: as far away as in the original, or
    by the instruction before. *)
Definition reach (col : collector) (r a lo hi : Z) : Prop :=
  (exists m M, dget (min_dist col) r = Some m /\ dget (max_dist col) r = Some M /\ lo = a - 4 * (M + 1) /\ hi = a - 4 * m) \/
  ((dget (min_dist col) r = None \/ dget (max_dist col) r = None) /\ lo = a - 4 /\ hi = a).
(** The claimed chance that [r] is not written, and the one computed: it is 1 as soon as
    nothing writes [r] at the furthest address. *)
Definition claimed (col : collector) (p : cprogram) (a r : Z) (q : Q) : Prop := exists lo hi l, reach col r a lo hi /\ window p lo hi l /\ (q == all_unwritten p r l)%Q.
Definition computed (col : collector) (p : cprogram) (a r : Z) (q : Q) : Prop := exists lo hi l, reach col r a lo hi /\ window p lo hi l /\
  match l with
  | [] => (q == 1)%Q
  | x :: _ => ((unwritten p r x == 1)%Q /\ (q == 1)%Q) \/ (~ (unwritten p r x == 1)%Q /\ (q == all_unwritten p r l)%Q)
  end.
(** The value for the storages read. *)
Definition read_value (m : pmodel) (chance : Z -> Q -> Prop) (reads : list Z) (q : Q) : Prop :=
  match reads with
  | [] => (q == low_probability m)%Q
  | r :: _ => exists s, (forall x, In x reads -> chance x (s x)) /\
      (((s r == 1)%Q /\ (((high_probability m < 1)%Q /\ (q == 1 - high_probability m)%Q) \/ ((1 <= high_probability m)%Q /\ (q == low_probability m)%Q))) \/
       (~ (s r == 1)%Q /\ exists x, In x reads /\ (q == 1 - s x)%Q /\ forall y, In y reads -> (s x <= s y)%Q))
  end.

(** *** Proof *)
Lemma live_kept p x : live p x = kept_here (dget (plain p) x).
Proof. unfold live, kept_here. rewrite OutcomeProps.plain_get. destruct (dget p x); reflexivity. Qed.
Lemma count_split {A} (f : A -> bool) l : Z.of_nat (length (filter (fun x => negb (f x)) l)) + Z.of_nat (length (filter f l)) = Z.of_nat (length l).
Proof. induction l as [|x l IH]; [reflexivity|]. cbn [filter length]. destruct (f x); cbn [negb length]; lia. Qed.
Lemma len_pos {A} (l : list A) : l <> [] -> (0 < inject_Z (Z.of_nat (length l)))%Q.
Proof. intros N. change 0%Q with (inject_Z 0). rewrite <- Zlt_Qlt. destruct l; [congruence|cbn [length]; lia]. Qed.
Lemma unwritten_is p r x : live p x <> [] -> (1 - inject_Z (number (fun i => zmem r (d_written i)) (live p x)) / inject_Z (Z.of_nat (length (live p x))) == unwritten p r x)%Q.
Proof.
  intros N. unfold unwritten, number. pose proof (len_pos _ N) as P. change (fun i => zmem r (d_written i)) with (writes_storage r). pose proof (count_split (writes_storage r) (live p x)) as C.
  rewrite <- C at 1. assert (E : (inject_Z (Z.of_nat (length (live p x))) == inject_Z (Z.of_nat (length (filter (fun i => negb (writes_storage r i)) (live p x)))) + inject_Z (Z.of_nat (length (filter (writes_storage r) (live p x)))))%Q) by (rewrite <- inject_Z_plus, C; reflexivity).
  rewrite C. set (t := inject_Z (Z.of_nat (length (live p x)))) in *. rewrite <- (Qmult_inv_r t) by lra. unfold Qdiv. rewrite E at 1. ring.
Qed.
Lemma unwritten_range p r x : live p x <> [] -> (0 <= unwritten p r x <= 1)%Q.
Proof.
  intros N. unfold unwritten. pose proof (len_pos _ N) as P. pose proof (count_split (writes_storage r) (live p x)) as C. split.
  - apply Qle_shift_div_l; [exact P|]. rewrite Qmult_0_l. change 0%Q with (inject_Z 0). rewrite <- Zle_Qle. lia.
  - apply Qle_shift_div_r; [exact P|]. rewrite Qmult_1_l. rewrite <- Zle_Qle. lia.
Qed.
Definition has_live (p : cprogram) (x : Z) : bool := match live p x with [] => false | _ => true end.
Lemma has_live_spec p x : has_live p x = true <-> live p x <> [].
Proof. unfold has_live. destruct (live p x); split; congruence. Qed.
Lemma survive_less p r : forall addrs q, (0 <= q < 1)%Q -> (survive (plain p) r addrs q == q * all_unwritten p r (filter (has_live p) addrs))%Q /\ (survive (plain p) r addrs q < 1)%Q.
Proof.
  induction addrs as [|x addrs IH]; intros q Hq; cbn [survive filter]; [cbn; split; [ring|lra]|]. pose proof (live_kept p x) as K. unfold has_live at 1. destruct (dget (plain p) x) as [insts|] eqn:G.
  - cbv zeta. rewrite <- K. destruct (live p x) as [|i l] eqn:El; [apply IH, Hq|]. rewrite <- El in *. assert (N : live p x <> []) by congruence. assert (0 <? Z.of_nat (length (live p x)) = true) as -> by (rewrite El; cbn [length]; lia).
    pose proof (unwritten_is p r x N) as U. pose proof (unwritten_range p r x N) as R. set (f := (1 - _ / _)%Q) in *. assert (L : (0 <= q * f < 1)%Q) by (rewrite U; nra). destruct (qeq_spec (q * f) 1) as [X|X]; [lra|]. destruct (IH (q * f)%Q L) as [A B]. split; [|exact B]. rewrite A, U. cbn [all_unwritten fold_right]. fold (all_unwritten p r (filter (has_live p) addrs)). ring.
  - cbn [kept_here] in K. rewrite K. apply IH, Hq.
Qed.
Lemma survive_one p r : forall addrs, match filter (has_live p) addrs with
  | [] => (survive (plain p) r addrs 1 == 1)%Q
  | (x :: _) as l => ((unwritten p r x == 1)%Q /\ (survive (plain p) r addrs 1 == 1)%Q) \/ (~ (unwritten p r x == 1)%Q /\ (survive (plain p) r addrs 1 == all_unwritten p r l)%Q /\ (survive (plain p) r addrs 1 < 1)%Q)
  end.
Proof.
  induction addrs as [|x addrs IH]; cbn [survive filter]; [reflexivity|]. pose proof (live_kept p x) as K. unfold has_live at 1. destruct (dget (plain p) x) as [insts|] eqn:G.
  - cbv zeta. rewrite <- K. destruct (live p x) as [|i l] eqn:El; [exact IH|]. rewrite <- El in *. assert (N : live p x <> []) by congruence. assert (0 <? Z.of_nat (length (live p x)) = true) as -> by (rewrite El; cbn [length]; lia).
    pose proof (unwritten_is p r x N) as U. pose proof (unwritten_range p r x N) as R. set (f := (1 - _ / _)%Q) in *. destruct (qeq_spec (1 * f) 1) as [X|X].
    + left. rewrite U in X. split; [lra|]. rewrite U. lra.
    + right. rewrite U in X. split; [lra|]. destruct (survive_less p r addrs (1 * f)%Q) as [A B]; [rewrite U; lra|]. split; [|exact B]. rewrite A, U. cbn [all_unwritten fold_right]. fold (all_unwritten p r (filter (has_live p) addrs)). ring.
  - cbn [kept_here] in K. rewrite K. exact IH.
Qed.
Lemma zrange_sorted a b : StronglySorted Z.lt (zrange a b).
Proof.
  remember (Z.to_nat (b - a)) as n eqn:E. revert a E. induction n as [|n IH]; intros a E; [rewrite zrange_nil by lia; constructor|]. rewrite zrange_cons by lia. constructor; [apply IH; lia|]. apply Forall_forall. intros x I. apply in_zrange in I. lia.
Qed.
Lemma sorted_filter f l : StronglySorted Z.lt l -> StronglySorted Z.lt (filter f l).
Proof. induction 1 as [|x l S IH F]; cbn [filter]; [constructor|]. destruct (f x); [|exact IH]. constructor; [exact IH|]. rewrite Forall_forall in *. intros y I. apply filter_In in I. apply F, I. Qed.
Lemma window_filter p lo hi : window p lo hi (filter (has_live p) (zrange lo hi)).
Proof. split; [apply sorted_filter, zrange_sorted|]. intros x. rewrite filter_In, in_zrange, has_live_spec. reflexivity. Qed.
Definition chance_of (col : collector) (p : cprogram) (a r : Z) : Q :=
  let '(u, v) := match dget (min_dist col) r, dget (max_dist col) r with Some u, Some v => (u, v + 1) | _, _ => (0, 1) end in survive (plain p) r (zrange (a - 4 * v) (a - 4 * u)) 1%Q.
Lemma chance_computed col p a r : computed col p a r (chance_of col p a r) /\ ((chance_of col p a r == 1)%Q \/ (chance_of col p a r < 1)%Q).
Proof.
  assert (X : forall lo hi, reach col r a lo hi -> chance_of col p a r = survive (plain p) r (zrange lo hi) 1%Q -> computed col p a r (chance_of col p a r) /\ ((chance_of col p a r == 1)%Q \/ (chance_of col p a r < 1)%Q)).
  { intros lo hi R ->. pose proof (survive_one p r (zrange lo hi)) as S. pose proof (window_filter p lo hi) as W. split.
    - exists lo, hi, (filter (has_live p) (zrange lo hi)). split; [exact R|]. split; [exact W|]. destruct (filter (has_live p) (zrange lo hi)); [exact S|]. destruct S as [S|(S1 & S2 & _)]; auto.
    - destruct (filter (has_live p) (zrange lo hi)); [auto|]. destruct S as [(_ & S)|(_ & _ & S)]; auto. }
  unfold chance_of in *. destruct (dget (min_dist col) r) as [u|] eqn:E1; [destruct (dget (max_dist col) r) as [v|] eqn:E2|].
  - eapply X; [|reflexivity]. left. exists u, v. auto.
  - eapply X; [|reflexivity]. right. split; [auto|]. lia.
  - eapply X; [|reflexivity]. right. split; [auto|]. lia.
Qed.
Lemma distance_step m col p a r rest q : register_distance m col (plain p) a (r :: rest) q = let q' := qmin (chance_of col p a r) q in if Qle_bool 1 q' then high_probability m else register_distance m col (plain p) a rest q'.
Proof. cbn [register_distance]. unfold chance_of. destruct (dget (min_dist col) r); [destruct (dget (max_dist col) r)|]; reflexivity. Qed.
Lemma qmin_spec a b : (qmin a b = a \/ qmin a b = b) /\ (qmin a b <= a)%Q /\ (qmin a b <= b)%Q.
Proof. unfold qmin. destruct (qlt_spec b a) as [L|L]; [|apply Qnot_lt_le in L]; (split; [auto|]); split; lra. Qed.
Lemma distance_less m col p a : forall reads q, (q < 1)%Q ->
  let v := register_distance m col (plain p) a reads q in ((v == q)%Q \/ exists x, In x reads /\ (v == chance_of col p a x)%Q) /\ (v <= q)%Q /\ forall y, In y reads -> (v <= chance_of col p a y)%Q.
Proof.
  induction reads as [|r reads IH]; intros q Hq; cbv zeta; [cbn [register_distance]; split; [left; reflexivity|]; split; [lra|intros y []]|]. rewrite distance_step. cbv zeta. destruct (qmin_spec (chance_of col p a r) q) as (E & L1 & L2). set (q' := qmin (chance_of col p a r) q) in *.
  destruct (qle_spec 1 q') as [X|X]; [lra|]. destruct (IH q') as (A & B & C); [lra|]. split; [|split].
  - destruct A as [A|(x & I & A)]; [|right; exists x; cbn; auto]. destruct E as [E|E]; [|left; rewrite A, E; reflexivity].
    right. exists r. split; [left; reflexivity|]. rewrite A, E. reflexivity.
  - lra.
  - intros y [<-|I]; [lra|apply C, I].
Qed.
Lemma distance_value m col p a i s : d_branch i || pushpop i = false -> exists q, compute_register_distance m col (plain p) a i s = dset s Kprd q /\ read_value m (computed col p a) (d_read i) q.
Proof.
  intros Hb. unfold compute_register_distance. rewrite Hb. cbv zeta. eexists. split; [reflexivity|]. unfold read_value. destruct (d_read i) as [|r reads]; [cbn [register_distance]; destruct (qle_spec (1 - 1) 0) as [X|X]; [reflexivity|exfalso; apply X; lra]|].
  exists (chance_of col p a). split; [intros x _; apply chance_computed|]. rewrite distance_step. cbv zeta. destruct (chance_computed col p a r) as [_ D]. destruct (qmin_spec (chance_of col p a r) 1) as (E & L1 & L2). set (q' := qmin (chance_of col p a r) 1) in *. destruct (qle_spec 1 q') as [X|X].
  - left. destruct D as [D|D]; [|lra]. split; [exact D|]. destruct (qle_spec (1 - high_probability m) 0) as [Y|Y]; [right|left]; (split; [lra|reflexivity]).
  - right. apply Qnot_le_lt in X. assert (D' : (chance_of col p a r < 1)%Q) by (destruct E as [E|E]; [rewrite <- E; exact X|rewrite E in X; lra]). assert (E' : (q' == chance_of col p a r)%Q) by (destruct E as [->|E]; [reflexivity|rewrite E in X; lra]).
    split; [lra|]. destruct (distance_less m col p a reads q' X) as (A & B & C). set (v := register_distance m col (plain p) a reads q') in *. destruct (qle_spec (1 - v) 0) as [Y|Y]; [lra|]. destruct A as [A|(x & I & A)].
    + exists r. split; [left; reflexivity|]. split; [rewrite A, E'; reflexivity|]. intros y [<-|I]; [lra|]. rewrite <- E', <- A. apply C, I.
    + exists x. split; [right; exact I|]. split; [rewrite A; reflexivity|]. intros y [<-|J]; [lra|]. rewrite <- A. apply C, J.
Qed.

(** The passes before the last two rules leave their entries alone. *)
Lemma later_scores m col w fns prog lo hi fn a first c c' : score_candidate m col w fns prog lo hi fn a first c = Ok c' -> d_ignore (c_inst c) = false ->
  exists s, (forall k, k = Kprd \/ k = Kpcfg -> dget s k = dget (c_scores c) k) /\
    if first then c_scores c' = s else compute_cfg m prog a (c_inst c) (compute_register_distance m col prog a (c_inst c) s) = Ok (c_scores c').
Proof.
  intros E Ig. unfold score_candidate in E. rewrite Ig in E.
  assert (Other : forall s k k' q, k' = Kprd \/ k' = Kpcfg -> k <> Kprd -> k <> Kpcfg -> dget (dset s k q : scores) k' = dget s k') by (intros s k k' q [->| ->] ? ?; apply dget_dset_other; auto).
  destruct (compute_conditional _ _ _ _) as [s1|] eqn:E1; cbn [bind] in E; [|discriminate].
  destruct (compute_opcode _ _ _ _) as [s2|] eqn:E2; cbn [bind] in E; [|discriminate].
  destruct (compute_registers _ _ _ _) as [s3|] eqn:E3; cbn [bind] in E; [|discriminate].
  destruct (compute_push_pop _ _ _ _ _ _ _) as [s4|] eqn:E4; cbn [bind] in E; [|discriminate].
  destruct (compute_branch_address _ _ _ _ _ _ _) as [s5|] eqn:E5; cbn [bind] in E; [|discriminate].
  exists s5. split.
  - intros k K.
    assert (X1 : dget s1 k = dget (c_scores c) k) by (unfold compute_conditional in E1; destruct (or_zero _); cbn [bind] in E1; [|discriminate]; injection E1 as <-; apply Other; [exact K|discriminate|discriminate]).
    assert (X2 : dget s2 k = dget s1 k) by (unfold compute_opcode in E2; destruct (or_zero _); cbn [bind] in E2; [|discriminate]; injection E2 as <-; apply Other; [exact K|discriminate|discriminate]).
    assert (X3 : dget s3 k = dget s2 k). { unfold compute_registers in E3. destruct (_ || _); [congruence|]. destruct (or_zero _); cbn [bind] in E3; [|discriminate]. injection E3 as <-. apply Other; [exact K|discriminate|discriminate]. }
    assert (Fi : forall p b p1 p2 e s', finish_push_pop m p b s3 p1 p2 e = Ok s' -> dget s' k = dget s3 k).
    { intros p b p1 p2 e s' X. unfold finish_push_pop in X. destruct (dget_r p b); cbn [bind] in X; [|discriminate]. destruct (quot _ _); cbn [bind] in X; [|discriminate]. injection X as <-. apply Other; [exact K|discriminate|discriminate]. }
    assert (X4 : dget s4 k = dget s3 k).
    { unfold compute_push_pop in E4. cbv zeta in E4. destruct (d_kind (c_inst c)); [destruct (dget fns a) as [[? ?]|]| |congruence].
      - destruct (op_prob _ _ _ _) as [[p1 e]|]; cbn [bind] in E4; [|discriminate]. destruct (walk_down _ _ _ _ _ _); cbn [bind] in E4; [|discriminate]. exact (Fi _ _ _ _ _ _ E4).
      - exact (Fi _ _ _ _ _ _ E4).
      - destruct (op_prob _ _ _ _) as [[p1 e]|]; cbn [bind] in E4; [|discriminate]. exact (Fi _ _ _ _ _ _ E4). }
    assert (X5 : dget s5 k = dget s4 k).
    { unfold compute_branch_address in E5. destruct (d_ignore (c_inst c) || negb (d_branch (c_inst c))); [congruence|]. destruct (d_jump (c_inst c)) as [j|]; [|injection E5 as <-; apply Other; [exact K|discriminate|discriminate]].
      destruct (if fn <=? j then _ else _) as [here|]; cbn [bind] in E5; [|discriminate]. destruct here; [|destruct (dmem fns j); [|destruct ((hi <? j) || (j <? lo))]]; injection E5 as <-; (apply Other; [exact K|discriminate|discriminate]). }
    congruence.
  - destruct first; cbn [bind] in E; [injection E as <-; reflexivity|]. destruct (compute_cfg _ _ _ _ _) as [s6|] eqn:E6; cbn [bind] in E; [|discriminate]. injection E as <-. reflexivity.
Qed.
Lemma cfg_key m prog a i s s' : compute_cfg m prog a i s = Ok s' -> exists q, s' = dset s Kpcfg q.
Proof. unfold compute_cfg. cbv zeta. destruct (cfg_result _ _ _ _ _ _ _ _ _) as [r|]; cbn [bind]; [|discriminate]. destruct (Qeq_bool r 0); [intros [= <-]; eauto|]. destruct (qlt 1 r); [discriminate|intros [= <-]; eauto]. Qed.
Lemma pushpop_kind i : pushpop i = match d_kind i with KOther => false | _ => true end.
Proof. reflexivity. Qed.

(** ** C146 *)
(** The claim: a candidate gets 1 less the least chance that a storage it reads is not
    written where it should be. *)
Definition claimed_value (col : collector) (p : cprogram) (a : Z) (reads : list Z) (q : Q) : Prop :=
  exists s, (forall x, In x reads -> claimed col p a x (s x)) /\ exists x, In x reads /\ (q == 1 - s x)%Q /\ forall y, In y reads -> (s x <= s y)%Q.
(** In an original without doubts, storage 4 is written two instructions before a first
    reader and just before a second. The second gets 1/1000, nothing writing 4 at the
    further of the two places. *)
Definition setter (a : Z) := mkCand (mkD (a + 1) a false 14 21 [4] [4] [] [4] [] false KOther None) [] AddScore.
Definition getter (a : Z) := mkCand (mkD (a + 2) a false 14 22 [4; 5] [5] [4] [5] [4] false KOther None) [] AddScore.
Definition bystander (a : Z) := mkCand (mkD (a + 3) a false 14 23 [5] [5] [] [5] [] false KOther None) [] AddScore.
Definition ex_reach : cprogram := [(0, [setter 0]); (4, [bystander 4]); (8, [getter 8]); (12, [setter 12]); (16, [getter 16])].
Definition ex_distances : collector := collect new_collector (map (fun x => c_inst x) (flat_map snd ex_reach)).
Theorem C146_reach_refuted : exists p', recover default_model ex_distances [(0, (0, 16))] ex_reach = Ok p' /\
  dget (min_dist ex_distances) 4 = Some 0 /\ dget (max_dist ex_distances) 4 = Some 1 /\
  (exists q, option_map (map (fun c => dget (c_scores c) Kprd)) (dget p' 16) = Some [Some q] /\ (q == 1 # 1000)%Q) /\
  (forall q, claimed_value ex_distances ex_reach 16 (d_read (c_inst (getter 16))) q -> (q == 1)%Q).
Proof.
  eexists. split; [vm_compute; reflexivity|]. split; [vm_compute; reflexivity|]. split; [vm_compute; reflexivity|]. split; [eexists; split; [vm_compute; reflexivity|]; vm_compute; reflexivity|].
  intros q (s & C & x & [<-|[]] & -> & _). destruct (C 4 (or_introl eq_refl)) as (lo & hi & l & R & (S & W) & E).
  assert (lo = 8 /\ hi = 16) as [-> ->].
  { destruct R as [(m & M & E1 & E2 & -> & ->)|[[X|X] _]]; [|exfalso; revert X; vm_compute; discriminate|exfalso; revert X; vm_compute; discriminate]. assert (m = 0 /\ M = 1) as [-> ->] by (split; [revert E1|revert E2]; vm_compute; congruence). lia. }
  assert (I : In 12 l) by (apply W; split; [lia|vm_compute; discriminate]).
  assert (Z : (all_unwritten ex_reach 4 l == 0)%Q). { clear - I. induction l as [|x l IH]; [destruct I|]. cbn [all_unwritten fold_right]. fold (all_unwritten ex_reach 4 l). destruct I as [->|I]; [assert (unwritten ex_reach 4 12 == 0)%Q as -> by (vm_compute; reflexivity); ring|rewrite (IH I); ring]. }
  rewrite E, Z. reflexivity.
Qed.
Print Assumptions C146_reach_refuted.
(** The exact value: the chance is 1 if nothing writes the storage at the furthest address,
    and the first storage read decides alone when its chance is 1. Branches, pushes and pops
    get no value, and nothing at the lowest address does. *)
Theorem C146_reach_partial : forall m col fns p p', NoDup (dkeys p) -> recover m col fns p = Ok p' ->
  forall a cs, dget p a = Some cs -> exists cs', dget p' a = Some cs' /\
    Forall2 (fun c c' => let i := c_inst c in
      ((exists b, In b (dkeys p) /\ b < a) -> d_ignore i = false -> d_branch i = false -> d_kind i = KOther ->
        exists q, dget (c_scores c') Kprd = Some q /\ read_value m (computed col p a) (d_read i) q) /\
      ((forall b, In b (dkeys p) -> a <= b) \/ d_ignore i = true \/ d_branch i = true \/ d_kind i <> KOther -> dget (c_scores c') Kprd = dget (c_scores c) Kprd)) cs cs'.
Proof.
  intros m col fns p p' N H a cs G. destruct (recover_spec m col fns p N) as [B _]. destruct (B p' H) as (lo & hi & Hlo & Hlo' & _ & _ & _ & F). destruct (F a cs G) as (fn & first & cs' & Cf & Hf & G' & F2). exists cs'. split; [exact G'|].
  refine (Forall2_weaken _ _ _ _ _ F2). clear F2. intros c c' E. cbv zeta. destruct (d_ignore (c_inst c)) eqn:Ig; [unfold score_candidate in E; rewrite Ig in E; assert (c' = c) as -> by congruence; split; [discriminate|reflexivity]|].
  destruct (later_scores _ _ _ _ _ _ _ _ _ _ _ _ E Ig) as (s & K & V). destruct first.
  - rewrite V. assert (a = lo) as -> by now apply Hf. split; [intros (b & Ib & Lb); specialize (Hlo' b Ib); lia|]. intros _. apply K. auto.
  - destruct (cfg_key _ _ _ _ _ _ V) as (q0 & ->). rewrite dget_dset_other by discriminate. split.
    + intros _ _ Hb Hk. destruct (distance_value m col p a (c_inst c) s) as (q & -> & R); [rewrite Hb, pushpop_kind, Hk; reflexivity|]. exists q. split; [apply dget_dset_same|exact R].
    + intros [X|[X|X]]; [exfalso; assert (false = true) by (apply Hf; specialize (X lo Hlo); assert (lo <= a) by (apply Hlo', dget_some_in; eauto); lia); discriminate|discriminate|].
      unfold compute_register_distance. assert (d_branch (c_inst c) || pushpop (c_inst c) = true) as -> by (rewrite pushpop_kind; destruct X as [->|X]; [reflexivity|destruct (d_kind (c_inst c)); [apply orb_true_r|apply orb_true_r|congruence]]). apply K. auto.
Qed.
Print Assumptions C146_reach_partial.
(** Storage 4 is certainly written before 4 is reached, the other candidate reads a storage
    nobody writes. *)
Definition ex_choice : cprogram := [(0, [setter 0]); (4, [getter 4; mkCand (mkD 9 4 false 14 22 [6; 5] [5] [6] [5] [6] false KOther None) [] AddScore])].
Example C146_example : NoDup (dkeys ex_choice) /\ live ex_choice 0 = [c_inst (setter 0)] /\ (unwritten ex_choice 4 0 == 0)%Q /\ (unwritten ex_choice 6 0 == 1)%Q /\
  exists p', recover default_model ex_distances [(0, (0, 4))] ex_choice = Ok p' /\
    exists q1 q2, option_map (map (fun c => dget (c_scores c) Kprd)) (dget p' 4) = Some [Some q1; Some q2] /\ (q1 == 1)%Q /\ (q2 == 1 # 1000)%Q.
Proof.
  split; [repeat constructor; cbn; lia|]. split; [reflexivity|]. split; [vm_compute; reflexivity|]. split; [vm_compute; reflexivity|]. eexists. split; [vm_compute; reflexivity|]. do 2 eexists. split; [vm_compute; reflexivity|]. split; vm_compute; reflexivity.
Qed.
