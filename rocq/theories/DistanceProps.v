(** C90, continued: exactly the score the distance rule leaves. *)
From Verif Require Import ListLemmas FlipModel FlipProofs InstModel MetaModel MetaSpec MetaProofs MetaProps BlaumProofs RecModel RecSpec RecProofs RecProofs3 GraphProofs RulesModel RulesSpec RulesProofs RulesProofs2 RulesProofs3 RulesProofs4 RulesProofs5 RulesProps.
From Coq Require Import ZifyBool ZifyNat Lqa Qminmax.

(** *** Specification *)
(** The distances recorded for the storages read, and the addresses they make the rule look
    at: from the least minimum to the greatest maximum. *)
Definition recorded (t : dict Z) (reads : list Z) : list Z := flat_map (fun r => match dget t r with Some d => [d] | None => [] end) reads.
Definition window (col : collector) (a : Z) (reads : list Z) : list Z :=
  match recorded (min_dist col) reads, recorded (max_dist col) reads with
  | d :: ds, e :: es => map (fun k => a - 4 * k) (zrange (fold_right Z.min d ds) (fold_right Z.max e es + 1))
  | _, _ => []
  end.
(** The part of a candidate's writes that goes to [r], if [r] is the last storage it writes,
    shared between the defined candidates of its address. *)
Definition occurrences (r : Z) (l : list Z) : Z := Z.of_nat (length (filter (Z.eqb r) l)).
Definition share (here r : Z) (written : list Z) : Q := (inject_Z (occurrences r written) / inject_Z (Z.of_nat (length written) * here))%Q.
Definition ends_in (r : Z) (written : list Z) : bool := match rev written with [] => false | x :: _ => x =? r end.
Definition shares_at (p : rprogram) (r b : Z) : list Q :=
  map (fun c => share (all_at p b) r (d_written (r_inst c))) (filter (fun c => ends_in r (d_written (r_inst c))) (defined_at p b)).
Definition largest (l : list Q) : Q := fold_right Qmax 0%Q l.
Definition credit_for (p : rprogram) (window : list Z) (r : Z) : Q := ((1 # 100000000000000) + largest (flat_map (shares_at p r) window))%Q.
Definition average (f : Z -> Q) (reads : list Z) : Q := (fold_right (fun r s => f r + s)%Q 0%Q reads / inject_Z (Z.of_nat (length reads)))%Q.
(** The score of a candidate: nothing where no address of the window is in the program. *)
Definition distance_score (col : collector) (p : rprogram) (a : Z) (c : rcand) : option Q :=
  let reads := d_read (r_inst c) in
  if r_ignore c then Some 0%Q
  else if Nat.eqb (length (d_used (r_inst c))) 0 then Some (1 # 100000000000000)%Q
  else if existsb (dmem p) (window col a reads) then Some (Qmin 1 (average (credit_for p (window col a reads)) reads)) else None.
(** Storages are not negative, and distances fit a machine word. *)
Definition writes_ok (p : rprogram) : Prop := forall a l c r, In (a, l) p -> In c l -> In r (d_written (r_inst c)) -> 0 <= r.
Definition distances_ok (col : collector) : Prop := forall r d, dget (min_dist col) r = Some d \/ dget (max_dist col) r = Some d -> - (2 ^ 63 - 1) < d < 2 ^ 63 - 1.

(** *** Proof *)
Lemma qmax_Qmax a b : (qmax a b == Qmax a b)%Q.
Proof. unfold qmax. destruct (qlt_spec a b) as [L|L]; [rewrite Q.max_r; lra|rewrite Q.max_l; lra]. Qed.
Lemma largest_nonneg l : (0 <= largest l)%Q.
Proof. induction l as [|x l IH]; cbn; [lra|]. eapply Qle_trans; [exact IH|apply Q.le_max_r]. Qed.
Lemma largest_app l m : (largest (l ++ m) == Qmax (largest l) (largest m))%Q.
Proof. induction l as [|x l IH]; cbn [app largest fold_right]. - rewrite Q.max_r; [reflexivity|apply largest_nonneg]. - fold (largest (l ++ m)) (largest l). rewrite IH. apply Q.max_assoc. Qed.
Lemma largest_snoc l x : (0 <= x)%Q -> (largest (l ++ [x]) == Qmax (largest l) x)%Q.
Proof. intros H. rewrite largest_app. cbn [largest fold_right]. rewrite (Q.max_l x 0); [reflexivity|exact H]. Qed.

Lemma average_eq f g reads : (forall r, In r reads -> (f r == g r)%Q) -> (average f reads == average g reads)%Q.
Proof. intros H. unfold average. apply Qmult_comp; [|reflexivity]. induction reads as [|r l IH]; cbn [fold_right]; [reflexivity|]. rewrite (H r (or_introl eq_refl)), IH; [reflexivity|]. intros x I; apply H; right; exact I. Qed.
Lemma average_le f g reads : (forall r, In r reads -> (f r <= g r)%Q) -> (average f reads <= average g reads)%Q.
Proof. intros H. unfold average, Qdiv. apply Qmult_le_compat_r. - induction reads as [|r l IH]; cbn [fold_right]; [apply Qle_refl|]. apply Qplus_le_compat; [apply H; left; reflexivity|]. apply IH. intros x I; apply H; right; exact I.
  - apply Qinv_le_0_compat. unfold Qle; cbn. lia. Qed.
Lemma reads_score_average rs reads : (forall r, In r reads -> 0 <= r < 20) -> reads <> [] -> exists q, reads_score rs reads = Ok q /\ (q == average (fun r => nth (Z.to_nat r) rs 0%Q) reads)%Q.
Proof. intros H N. unfold reads_score. destruct reads as [|x l]; [congruence|]. eexists. split; [reflexivity|]. unfold average. apply Qmult_comp; [|reflexivity].
  assert (G : forall m s, (forall r, In r m -> 0 <= r < 20) -> (fold_left (fun s r => if r <? STORAGE_COUNT then s + nth (Z.to_nat r) rs 0 else s) m s == s + fold_right (fun r s => nth (Z.to_nat r) rs 0 + s) 0 m)%Q).
  { clear. induction m as [|r m IH]; intros s H; cbn [fold_left fold_right]; [ring|]. replace (r <? STORAGE_COUNT) with true by (specialize (H r (or_introl eq_refl)); unfold STORAGE_COUNT; lia). rewrite IH; [ring|]. intros y I; apply H; right; exact I. }
  rewrite G by exact H. ring. Qed.

Lemma credit_exact reads here written cr r : (forall x, In x reads -> 0 <= x < 20) -> In r reads -> (forall x, In x written -> 0 <= x) -> credit reads here written = Ok cr ->
  length cr = 20%nat /\ (nth (Z.to_nat r) cr 0 == EPSILON + share here r written)%Q.
Proof. intros H I Nn. unfold credit, share. set (t := inject_Z (Z.of_nat (length written) * here)).
  assert (G : forall ws (c0 c1 : list Q), (forall x, In x ws -> 0 <= x) -> length c0 = 20%nat -> foldM (fun cr w => if zmem w reads then if w <? STORAGE_COUNT then let i := Z.to_nat w in Ok (list_set cr i (nth i cr 0 + 1 / t)%Q) else Err IndexError else Ok cr) ws c0 = Ok c1 ->
    length c1 = 20%nat /\ (nth (Z.to_nat r) c1 0 == nth (Z.to_nat r) c0 0 + inject_Z (occurrences r ws) / t)%Q).
  { clear - H I. induction ws as [|w ws IH]; intros c0 c1 Nn L E; cbn [foldM] in E.
    - injection E as <-. split; [exact L|]. unfold occurrences; cbn. unfold Qdiv. ring.
    - destruct (zmem w reads) eqn:M.
      + apply zmem_in in M. pose proof (H w M) as Hw. pose proof (H r I) as Hr. replace (w <? STORAGE_COUNT) with true in E by (unfold STORAGE_COUNT; lia). cbv zeta in E. cbn [bind] in E. apply IH in E; [|intros x J; apply Nn; right; exact J|rewrite list_set_len; exact L]. destruct E as [L1 E]. split; [exact L1|]. rewrite E, nth_list_set, L.
        unfold occurrences. cbn [filter]. destruct (Z.eqb_spec r w) as [->|N].
        * rewrite Nat.eqb_refl. replace (Nat.ltb (Z.to_nat w) 20) with true by lia. cbn [length]. rewrite Nat2Z.inj_succ. unfold Z.succ. rewrite inject_Z_plus. unfold Qdiv. change (inject_Z 1) with 1%Q. ring.
        * replace (Nat.eqb (Z.to_nat w) (Z.to_nat r)) with false by lia. reflexivity.
      + cbn [bind] in E. apply IH in E; [|intros x J; apply Nn; right; exact J|exact L]. destruct E as [L1 E]. split; [exact L1|]. rewrite E. unfold occurrences. cbn [filter]. destruct (Z.eqb_spec r w) as [->|N]; [|reflexivity]. assert (X : zmem w reads = true) by (apply zmem_in; exact I). congruence. }
  intros E. apply G in E; [|exact Nn|reflexivity]. destruct E as [L E]. split; [exact L|]. rewrite E. pose proof (H r I). rewrite (nth_indep _ 0%Q EPSILON) by (rewrite repeat_length; unfold STORAGE_COUNT; lia). rewrite nth_repeat. reflexivity. Qed.

Lemma ends_in_last r written : written <> [] -> ends_in r written = (List.last written 0 =? r).
Proof. intros N. destruct (exists_last N) as (l & x & ->). unfold ends_in. rewrite rev_app_distr, last_last. reflexivity. Qed.
Lemma share_nonneg here r written : 0 <= here -> (0 <= share here r written)%Q.
Proof. intros H. unfold share, Qdiv. apply Qmult_le_0_compat; [unfold occurrences, Qle; cbn; lia|]. apply Qinv_le_0_compat. unfold Qle; cbn. nia. Qed.
(** What one candidate adds to the shares of [r]. *)
Definition adds (here r : Z) (c : rcand) : list Q := if ends_in r (d_written (r_inst c)) then [share here r (d_written (r_inst c))] else [].
Definition knows (reads : list Z) (rs : list Q) (sh : Z -> list Q) : Prop := length rs = 20%nat /\ forall r, In r reads -> (nth (Z.to_nat r) rs 0 == EPSILON + largest (sh r))%Q.

Lemma step_exact reads here rs w c rs' w' sh : (forall x, In x reads -> 0 <= x < 20) -> 0 <= here -> (forall x, In x (d_written (r_inst c)) -> 0 <= x) -> r_ignore c = false -> knows reads rs sh ->
  dist_step reads here (rs, w) c = Ok (rs', w') -> knows reads rs' (fun r => sh r ++ adds here r c).
Proof. intros H Hh Nn Ig [L K] E. unfold dist_step in E. rewrite Ig in E. destruct (credit reads here (d_written (r_inst c))) as [cr|e] eqn:C; [|discriminate]. cbn [bind] in E.
  assert (Cr : forall r, In r reads -> length cr = 20%nat /\ (nth (Z.to_nat r) cr 0 == EPSILON + share here r (d_written (r_inst c)))%Q) by (intros r I; exact (credit_exact reads here _ cr r H I Nn C)).
  destruct (d_written (r_inst c)) as [|w0 ws] eqn:W.
  - injection E as E _. assert (A : forall r, adds here r c = []) by (intros r; unfold adds; rewrite W; reflexivity).
    destruct w as [x|]; [|subst rs'; split; [exact L|intros r I; rewrite A, app_nil_r; exact (K r I)]]. destruct (x <? STORAGE_COUNT) eqn:X; [|subst rs'; split; [exact L|intros r I; rewrite A, app_nil_r; exact (K r I)]]. subst rs'.
    split; [rewrite list_set_len; exact L|]. intros r I. rewrite A, app_nil_r, nth_list_set, L. destruct (Nat.eqb_spec (Z.to_nat x) (Z.to_nat r)) as [Ex|Nx]; [|exact (K r I)]. rewrite Ex. replace (Nat.ltb (Z.to_nat r) 20) with true by (specialize (H r I); lia). rewrite qmax_Qmax, Q.max_l; [exact (K r I)|].
    destruct (Cr r I) as [_ ->]. rewrite (K r I). unfold share, occurrences; cbn [filter length]. change (inject_Z (Z.of_nat 0)) with 0%Q. unfold Qdiv. rewrite Qmult_0_l. pose proof (largest_nonneg (sh r)). lra.
  - set (written := w0 :: ws) in *. set (x := List.last written 0) in *. assert (N : written <> []) by discriminate.
    assert (E' : rs' = if x <? STORAGE_COUNT then list_set rs (Z.to_nat x) (qmax (nth (Z.to_nat x) rs 0%Q) (nth (Z.to_nat x) cr 0%Q)) else rs) by (injection E; intros; symmetry; assumption). clear E.
    assert (Hx : 0 <= x). { apply Nn. unfold x. destruct (exists_last N) as (l & y & ->). rewrite last_last. apply in_or_app. right. left. reflexivity. }
    assert (A : forall r, adds here r c = if x =? r then [share here r written] else []) by (intros r; unfold adds; rewrite W, ends_in_last by exact N; reflexivity).
    destruct (Z.ltb_spec x STORAGE_COUNT) as [X|X]; subst rs'; unfold STORAGE_COUNT in X.
    + split; [rewrite list_set_len; exact L|]. intros r I. rewrite A, nth_list_set, L. pose proof (H r I) as Hr. destruct (Z.eqb_spec x r) as [Ex|Nx].
      * rewrite Ex, Nat.eqb_refl. replace (Nat.ltb (Z.to_nat r) 20) with true by lia. rewrite qmax_Qmax, largest_snoc by (apply share_nonneg; exact Hh). destruct (Cr r I) as [_ ->]. rewrite (K r I). apply Q.plus_max_distr_l.
      * replace (Nat.eqb (Z.to_nat x) (Z.to_nat r)) with false by lia. rewrite app_nil_r. exact (K r I).
    + split; [exact L|]. intros r I. rewrite A. replace (x =? r) with false by (specialize (H r I); lia). rewrite app_nil_r. exact (K r I). Qed.

Lemma fold_exact reads here l : (forall x, In x reads -> 0 <= x < 20) -> 0 <= here -> (forall c x, In c l -> In x (d_written (r_inst c)) -> 0 <= x) -> (forall c, In c l -> r_ignore c = false) -> forall rs w rs' w' sh, knows reads rs sh ->
  foldM (dist_step reads here) l (rs, w) = Ok (rs', w') -> knows reads rs' (fun r => sh r ++ flat_map (adds here r) l).
Proof. intros H Hh. induction l as [|c l IH]; intros Nn Ig rs w rs' w' sh K E; cbn [foldM] in E.
  - injection E as <- _. destruct K as [L K]. split; [exact L|]. intros r I. cbn [flat_map]. rewrite app_nil_r. exact (K r I).
  - destruct (dist_step reads here (rs, w) c) as [[rs1 w1]|e] eqn:S; [|discriminate]. cbn [bind] in E.
    pose proof (step_exact reads here rs w c rs1 w1 sh H Hh (fun x => Nn c x (or_introl eq_refl)) (Ig c (or_introl eq_refl)) K S) as K1.
    specialize (IH (fun d x J => Nn d x (or_intror J)) (fun d J => Ig d (or_intror J)) rs1 w1 rs' w' _ K1 E). destruct IH as [L F]. split; [exact L|]. intros r I. rewrite (F r I). cbn [flat_map]. rewrite app_assoc. reflexivity. Qed.

Lemma adds_shares p b prev r : dget p b = Some prev -> flat_map (adds (candidate_count prev) r) (live prev) = shares_at p r b.
Proof. intros G. unfold shares_at, all_at, defined_at. rewrite G, candidate_count_live. generalize (Z.of_nat (length (live prev))) as n. intros n. induction (live prev) as [|c l IH]; [reflexivity|]. cbn [flat_map filter]. rewrite IH. unfold adds. destruct (ends_in r (d_written (r_inst c))); reflexivity. Qed.
Lemma shares_none p b r : dget p b = None -> shares_at p r b = [].
Proof. intros G. unfold shares_at, defined_at. rewrite G. reflexivity. Qed.

Definition mean_of (sh : Z -> list Q) (reads : list Z) : Q := average (fun r => EPSILON + largest (sh r))%Q reads.
Lemma mean_more sh sh' reads : (mean_of sh reads <= mean_of (fun r => sh r ++ sh' r) reads)%Q.
Proof. apply average_le. intros r _. rewrite largest_app. pose proof (Q.le_max_l (largest (sh r)) (largest (sh' r))). lra. Qed.
Lemma mean_same sh sh' reads : (forall r, sh r = sh' r) -> (mean_of sh reads == mean_of sh' reads)%Q.
Proof. intros H. apply average_eq. intros r _. rewrite H. reflexivity. Qed.

Lemma back_exact p reads : (forall x, In x reads -> 0 <= x < 20) -> reads <> [] -> writes_ok p -> forall positions rs best w o w' sh, knows reads rs sh -> (best <= mean_of sh reads)%Q ->
  back_score p reads positions rs best w = Ok (o, w') ->
  match o with
  | Some x => existsb (dmem p) positions = true /\ (x == Qmin 1 (mean_of (fun r => sh r ++ flat_map (shares_at p r) positions) reads))%Q
  | None => existsb (dmem p) positions = false
  end.
Proof. intros H N Wo. induction positions as [|b rest IH]; intros rs best w o w' sh K B E; cbn [back_score existsb] in *.
  - injection E as <- _. reflexivity.
  - unfold dmem at 1 3. destruct (dget p b) as [prev|] eqn:G; cbn [orb].
    + destruct (foldM (dist_step reads (candidate_count prev)) prev (rs, w)) as [[rs1 w1]|e] eqn:F; [|discriminate]. cbn [bind] in E. rewrite dist_live in F.
      assert (K1 : knows reads rs1 (fun r => sh r ++ shares_at p r b)).
      { pose proof (fold_exact reads (candidate_count prev) (live prev) H) as X. destruct (X ltac:(rewrite candidate_count_live; lia)
          ltac:(intros c x J1 J2; apply filter_In in J1; exact (Wo b prev c x (dget_in _ _ _ G) (proj1 J1) J2)) ltac:(intros c J; apply filter_In in J; destruct J as [_ J]; destruct (r_ignore c); [discriminate|reflexivity]) rs w rs1 w1 sh K F) as [L Y].
        split; [exact L|]. intros r I. rewrite (Y r I), (adds_shares p b prev r G). reflexivity. }
      destruct (reads_score_average rs1 reads H N) as (q & Eq & Q1). rewrite Eq in E. cbn [bind] in E.
      assert (Q2 : (q == mean_of (fun r => sh r ++ shares_at p r b) reads)%Q) by (rewrite Q1; apply average_eq; intros r I; exact (proj2 K1 r I)).
      assert (Q3 : (qmax q best == mean_of (fun r => sh r ++ shares_at p r b) reads)%Q) by (rewrite qmax_Qmax, Q.max_l; [exact Q2|]; rewrite Q2; eapply Qle_trans; [exact B|]; exact (mean_more sh (fun r => shares_at p r b) reads)).
      assert (More : (mean_of (fun r => sh r ++ flat_map (shares_at p r) (b :: rest)) reads == mean_of (fun r => (sh r ++ shares_at p r b) ++ flat_map (shares_at p r) rest) reads)%Q) by (apply mean_same; intros r; cbn [flat_map]; rewrite app_assoc; reflexivity).
      pose proof (mean_more (fun r => sh r ++ shares_at p r b) (fun r => flat_map (shares_at p r) rest) reads) as Le. cbv beta in Le.
      destruct (qle_spec 1 (qmax q best)) as [L1|L1].
      * injection E as <- _. split; [reflexivity|]. rewrite More, Q.min_l; [reflexivity|]. rewrite Q3 in L1. eapply Qle_trans; [exact L1|exact Le].
      * destruct (back_score p reads rest rs1 (qmax q best) w1) as [[o2 w2]|e] eqn:E2; [|discriminate]. cbn [bind] in E. injection E as <- _. split; [reflexivity|].
        specialize (IH rs1 (qmax q best) w1 o2 w2 _ K1 ltac:(rewrite Q3; apply Qle_refl) E2). rewrite More. destruct o2 as [x|]; [exact (proj2 IH)|].
        assert (Z0 : forall r, flat_map (shares_at p r) rest = []). { intros r. clear - IH. induction rest as [|c l IH2]; [reflexivity|]. cbn [existsb] in IH. apply orb_false_iff in IH. destruct IH as [I1 I2]. cbn [flat_map]. rewrite IH2 by exact I2. rewrite shares_none; [reflexivity|]. unfold dmem in I1. destruct (dget p c); [discriminate|reflexivity]. }
        rewrite (mean_same _ (fun r => sh r ++ shares_at p r b)) by (intros r; rewrite Z0, app_nil_r; reflexivity). rewrite Q.min_r; [exact Q3|]. rewrite <- Q3. lra.
    + specialize (IH rs best w o w' sh K B E). destruct o as [x|]; [|exact IH]. destruct IH as [I1 I2]. split; [exact I1|]. rewrite I2. assert (X : (mean_of (fun r => sh r ++ flat_map (shares_at p r) rest) reads == mean_of (fun r => sh r ++ flat_map (shares_at p r) (b :: rest)) reads)%Q) by (apply mean_same; intros r; cbn [flat_map]; rewrite (shares_none p b r G); reflexivity). rewrite X. reflexivity. Qed.

Lemma lowest_recorded col reads : distances_ok col -> lowest_distance col reads = fold_right Z.min MAXSIZE (recorded (min_dist col) reads).
Proof. intros D. unfold lowest_distance. assert (G : forall m, fold_left (fun m v => match dget (min_dist col) v with Some d => if d <? m then d else m | None => m end) reads m = fold_right Z.min m (recorded (min_dist col) reads)).
  { induction reads as [|r l IH]; intros m; [reflexivity|]. cbn [fold_left recorded flat_map]. fold (recorded (min_dist col) l). rewrite IH. destruct (dget (min_dist col) r) as [d|]; [|reflexivity]. cbn [app fold_right]. replace (if d <? m then d else m) with (Z.min d m) by (destruct (Z.ltb_spec d m); lia). generalize (recorded (min_dist col) l). clear. induction l as [|x l IH]; cbn; [reflexivity|]. rewrite IH. lia. }
  apply G. Qed.
Lemma highest_recorded col reads : distances_ok col -> highest_distance col reads = fold_right Z.max (- MAXSIZE) (recorded (max_dist col) reads).
Proof. intros D. unfold highest_distance. assert (G : forall m, fold_left (fun m v => match dget (max_dist col) v with Some d => if d >? m then d else m | None => m end) reads m = fold_right Z.max m (recorded (max_dist col) reads)).
  { induction reads as [|r l IH]; intros m; [reflexivity|]. cbn [fold_left recorded flat_map]. fold (recorded (max_dist col) l). rewrite IH. destruct (dget (max_dist col) r) as [d|]; [|reflexivity]. cbn [app fold_right]. replace (if d >? m then d else m) with (Z.max d m) by (destruct (Z.gtb_spec d m); lia). generalize (recorded (max_dist col) l). clear. induction l as [|x l IH]; cbn; [reflexivity|]. rewrite IH. lia. }
  apply G. Qed.
Lemma recorded_in t reads d : In d (recorded t reads) -> exists r, dget t r = Some d.
Proof. unfold recorded. rewrite in_flat_map. intros (r & _ & I). destruct (dget t r) as [e|] eqn:G; [|destruct I]. destruct I as [<-|[]]. eauto. Qed.
Lemma zrange_empty a b : b <= a -> zrange a b = [].
Proof. intros H. unfold zrange. replace (Z.to_nat (b - a)) with 0%nat by lia. reflexivity. Qed.
Lemma fold_min_base l d : d < MAXSIZE -> fold_right Z.min MAXSIZE (d :: l) = fold_right Z.min d l.
Proof. intros H. cbn [fold_right]. induction l as [|x l IH]; cbn [fold_right]; [lia|]. rewrite <- IH. lia. Qed.
Lemma fold_max_base l d : - MAXSIZE < d -> fold_right Z.max (- MAXSIZE) (d :: l) = fold_right Z.max d l.
Proof. intros H. cbn [fold_right]. induction l as [|x l IH]; cbn [fold_right]; [lia|]. rewrite <- IH. lia. Qed.
Lemma window_positions col a reads : distances_ok col -> positions_of col a reads = window col a reads.
Proof. intros D. unfold positions_of, window. rewrite lowest_recorded, highest_recorded by exact D.
  assert (A : forall d, In d (recorded (min_dist col) reads) -> - MAXSIZE < d < MAXSIZE) by (intros d I; apply recorded_in in I; destruct I as (r & I); apply (D r d); left; exact I).
  assert (B : forall d, In d (recorded (max_dist col) reads) -> - MAXSIZE < d < MAXSIZE) by (intros d I; apply recorded_in in I; destruct I as (r & I); apply (D r d); right; exact I).
  destruct (recorded (min_dist col) reads) as [|d ds].
  - rewrite zrange_empty; [reflexivity|]. cbn [fold_right]. assert (X : forall l m, (forall x, In x l -> x < MAXSIZE) -> m < MAXSIZE -> fold_right Z.max m l < MAXSIZE). { clear. induction l as [|x l IH]; intros m H M; cbn [fold_right]; [exact M|]. specialize (IH m (fun y J => H y (or_intror J)) M). specialize (H x (or_introl eq_refl)). lia. }
    specialize (X (recorded (max_dist col) reads) (- MAXSIZE) (fun x I => proj2 (B x I)) ltac:(unfold MAXSIZE; lia)). lia.
  - destruct (recorded (max_dist col) reads) as [|e es].
    + rewrite zrange_empty; [reflexivity|]. cbn [fold_right]. assert (X : forall l m, (forall x, In x l -> - MAXSIZE < x) -> - MAXSIZE < m -> - MAXSIZE < fold_right Z.min m l). { clear. induction l as [|x l IH]; intros m H M; cbn [fold_right]; [exact M|]. specialize (IH m (fun y J => H y (or_intror J)) M). specialize (H x (or_introl eq_refl)). lia. }
      specialize (X ds MAXSIZE (fun x I => proj1 (A x (or_intror I))) ltac:(unfold MAXSIZE; lia)). pose proof (A d (or_introl eq_refl)). lia.
    + rewrite fold_min_base, fold_max_base; [reflexivity|exact (proj1 (B e (or_introl eq_refl)))|exact (proj2 (A d (or_introl eq_refl)))]. Qed.

Lemma final_exact col p a w c o w' : (r_ignore c = false -> forall r, In r (d_read (r_inst c)) -> 0 <= r < 20) -> writes_ok p -> distances_ok col ->
  final_score col p a w c = Ok (o, w') -> same_number o (distance_score col p a c).
Proof. intros H Wo D. unfold final_score, distance_score, r_ignore in *. destruct (d_ignore (r_inst c)); [intros E; injection E as <- _; reflexivity|]. specialize (H eq_refl).
  destruct (d_used (r_inst c)) as [|u us]; [intros E; injection E as <- _; reflexivity|]. cbn [length Nat.eqb]. rewrite window_positions by exact D. intros E.
  destruct (d_read (r_inst c)) as [|r0 rr] eqn:R. { injection E as <- _. reflexivity. } rewrite <- R in *. clear u us.
  assert (K : knows (d_read (r_inst c)) eps20 (fun _ => [])). { split; [reflexivity|]. intros r I. unfold eps20. rewrite (nth_indep _ 0%Q EPSILON) by (rewrite repeat_length; specialize (H r I); unfold STORAGE_COUNT; lia). rewrite nth_repeat. reflexivity. }
  assert (B : (0 <= mean_of (fun _ => []) (d_read (r_inst c)))%Q). { unfold mean_of. eapply Qle_trans; [|apply (average_le (fun _ => 0%Q)); intros r _; vm_compute; discriminate]. unfold average. assert (X : forall l : list Z, (fold_right (fun (_ : Z) (s : Q) => 0 + s) 0 l == 0)%Q) by (clear; induction l as [|x l IH]; cbn [fold_right]; [reflexivity|rewrite IH; reflexivity]). rewrite X. unfold Qdiv. rewrite Qmult_0_l. apply Qle_refl. }
  pose proof (back_exact p (d_read (r_inst c)) H ltac:(rewrite R; discriminate) Wo (window col a (d_read (r_inst c))) eps20 0%Q w o w' _ K B E) as X. destruct o as [x|].
  - destruct X as [X1 X2]. rewrite X1. cbn [same_number]. rewrite X2. reflexivity.
  - rewrite X. exact I. Qed.

Theorem C90_exactly : forall pass col p a l, storages_ok p -> writes_ok p -> distances_ok col -> dget p a = Some l ->
  exists l' b, read_distance pass col p a = Ok (dset p a l', b) /\
    Forall2 (fun c c' => match distance_score col p a c with Some q => got (key_of RDist pass) q c c' | None => c' = c end) l l'.
Proof. intros pass col p a l SO Wo D G. destruct (read_distance_ok pass col p a l SO G) as (l' & b & os & E & Fs & L & F). exists l', b. split; [exact E|]. clear E.
  assert (Hr : forall c, In c l -> r_ignore c = false -> forall r, In r (d_read (r_inst c)) -> 0 <= r < 20) by (intros c I Ig r J; exact (SO a l c r (dget_in _ _ _ G) I Ig J)). clear G SO.
  revert os l' L Fs F. generalize (@None Z) as w. induction l as [|c l IH]; intros w os l' L Fs F.
  - destruct os; [|discriminate]. cbn [combine] in F. inversion F. constructor.
  - destruct os as [|o os]; [discriminate|]. cbn [combine] in F. inversion F as [|? c' ? r' G' F']; subst. cbn [fst snd] in G'. cbn [final_scores] in Fs.
    destruct (final_score col p a w c) as [[o1 w1]|e] eqn:E1; cbn [bind] in Fs; [|discriminate]. destruct (final_scores col p a w1 l) as [os1|e] eqn:E2; cbn [bind] in Fs; [|discriminate]. injection Fs as <- <-.
    constructor; [|exact (IH (fun d J => Hr d (or_intror J)) w1 os1 r' ltac:(cbn [length] in L; lia) E2 F')].
    pose proof (final_exact col p a w c o1 w1 (Hr c (or_introl eq_refl)) Wo D E1) as X. destruct o1 as [q|], (distance_score col p a c) as [q2|]; cbn [same_number got_if] in *; try contradiction; [|exact G'].
    destruct G' as (A1 & A2 & A3 & (q' & A4 & A5) & A6). repeat split; try assumption. exists q'. split; [exact A4|]. rewrite A5. exact X. Qed.
Print Assumptions C90_exactly.
(** r0 and r1 are read; r1 was certainly written two instructions before, r0 only by one of
    the two candidates in between, whose second write it is. *)
Definition d_prog : rprogram := [(0, [ins 0 14 5 [1] [1] []]); (4, [ins 4 14 5 [2; 0] [2; 0] []; ins 4 14 5 [3] [3] []]); (8, [ins 8 14 6 [4; 0; 1] [4] [0; 1]; dropped r_far])].
Definition d_col := mkCollector [] [] [] [(0, 1); (1, 2)] [(0, 1); (1, 2)] [] [].
Example C90_exactly_example : let col := d_col in
  storages_ok d_prog /\ writes_ok d_prog /\ distances_ok col /\ window col 8 [0; 1] = [4; 0] /\
  credit_for d_prog [4; 0] 0 == EPSILON + (1 # 4) /\ credit_for d_prog [4; 0] 1 == EPSILON + 1 /\
  match distance_score col d_prog 8 (ins 8 14 6 [4; 0; 1] [4] [0; 1]) with Some q => q == EPSILON + (5 # 8) | None => False end /\
  match read_distance 0 col d_prog 8 with Ok (p', _) => rmap (map (fun c => option_map Qred (dget (r_scores c) 4))) (dget_r p' 8) | Err e => Err e end = Ok [Some (Qred (EPSILON + (5 # 8))); Some 0%Q].
Proof. cbv zeta. split; [|split; [|split]].
  - intros a l c r [E|[E|[E|[]]]]; injection E as <- <-; intros I _ J; cbn [In] in I; repeat (destruct I as [<-|I]; [vm_compute in J; intuition lia|]); destruct I.
  - intros a l c r [E|[E|[E|[]]]]; injection E as <- <-; intros I J; cbn [In] in I; repeat (destruct I as [<-|I]; [vm_compute in J; intuition lia|]); destruct I.
  - intros r d H. unfold d_col in H. cbn [min_dist max_dist dget] in H. destruct (r =? 0), (r =? 1); destruct H as [H|H]; try discriminate H; injection H as <-; lia.
  - vm_compute. repeat split. Qed.
