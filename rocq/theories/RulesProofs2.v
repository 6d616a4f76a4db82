(** Lemmas about the counting rules when the original program is among the candidates. *)
From Verif Require Import ListLemmas FlipModel FlipProofs InstModel MetaModel MetaSpec MetaProofs MetaProps RecModel RecSpec RecProofs RulesModel RulesSpec RulesProofs.
From Coq Require Import ZifyBool ZifyNat Permutation Lqa.

Lemma got_eq k q q' c c' : (q == q')%Q -> got k q c c' -> got k q' c c'.
Proof. intros E (A & B & C & (x & D & D') & F). repeat split; try assumption. exists x. split; [exact D|]. rewrite D'. exact E. Qed.

Lemma run_rule_unfold r pass col cache p a : run_rule r pass col cache p a = recover_count (key r pass) (values_of r) (added r) (counts_of r col) cache p a.
Proof. destruct r; reflexivity. Qed.

Lemma dvalues_in (p : rprogram) l : In l (dvalues p) <-> exists a, In (a, l) p.
Proof. unfold dvalues. rewrite in_map_iff. split; [intros ([a x] & <- & I); exists a; exact I|intros (a & I); exists (a, l); auto]. Qed.

Lemma rule_runs r pass col p a l : dget p a = Some l -> known_values r col p -> first_defined p ->
  exists l' cache b, run_rule r pass col [] p a = Ok (dset p a l', cache, b) /\
    Forall2 (fun c c' => if r_ignore c then c' = c else got (key r pass) (added r c + mean_chance (values_of r) (counts_of r col) p c) c c') l l' /\
    (b = true <-> ~ Forall2 same_cand l l').
Proof. intros E K F. rewrite run_rule_unfold. unfold recover_count.
  destruct (remaining_spec (values_of r) (counts_of r col) p) as (sc & R & S).
  { intros x I. apply dvalues_in in I. destruct I as (b & I). exact (F b x I). }
  { intros x c v I. apply dvalues_in in I. destruct I as (b & I). exact (K b x c v I). }
  rewrite R. cbn [bind]. unfold dget_r. rewrite E. cbn [bind].
  destruct (count_candidates_spec (key r pass) sc (values_of r) (added r) l) as (l' & b & C & G & B). rewrite C. exists l', sc, b. split; [reflexivity|]. split; [|exact B].
  clear - G S. induction G as [|c c' l l' H G IH]; constructor; [|exact IH]. destruct (r_ignore c); [exact H|]. eapply got_eq; [|exact H]. apply count_score_spec, S. Qed.

(** *** KeyError exactly for unknown values *)
Lemma count_step_ok f rem can l rem' can' : count_step f (rem, can) l = Ok (rem', can') ->
  (forall v, dget rem' v <> None <-> dget rem v <> None) /\
  (forall c l', l = c :: l' -> r_ignore c = false -> resolved l = true -> forall v, In v (f c) -> dget rem v <> None).
Proof. unfold count_step. rewrite resolved_count. destruct (resolved l) eqn:E.
  - destruct l as [|c l']; [discriminate|]. cbn [nth_r nth_error bind]. destruct (r_ignore c) eqn:I.
    + intros H. injection H as <- <-. split; [reflexivity|]. intros x y H. injection H as <- <-. congruence.
    + intros H. assert (K : forall v, In v (f c) -> dget rem v <> None).
      { intros v J N. change (bind (foldM dec_step (f c) rem) (fun remaining' => Ok (remaining', can)) = Ok (rem', can')) in H. rewrite (dec_fold_err _ _ v J N) in H. discriminate. }
      destruct (dec_fold (f c) rem K) as (d' & F & G). unfold dec_step in F. rewrite F in H. cbn [bind] in H. injection H as <- <-. split.
      * intros v. rewrite G. destruct (dget rem v); cbn [option_map]; split; congruence.
      * intros x y H _ _. injection H as <- <-. exact K.
  - intros H. injection H as <- <-. split; [reflexivity|]. intros; discriminate. Qed.
Lemma count_step_err f st l e : count_step f st l = Err e -> e = KeyError.
Proof. destruct st as [rem can]. unfold count_step. rewrite resolved_count. destruct (resolved l) eqn:E; [|discriminate].
  destruct l as [|c l']; [discriminate E|]. cbn [nth_r nth_error bind]. destruct (r_ignore c); [discriminate|].
  intros H. change (bind (foldM dec_step (f c) rem) (fun remaining' => Ok (remaining', can)) = Err e) in H.
  destruct (foldM dec_step (f c) rem) as [d|e'] eqn:F; [discriminate|]. cbn [bind] in H. injection H as <-. clear - F. revert rem F. induction (f c) as [|v vs IH]; intros rem F; [discriminate|]. cbn [foldM] in F. unfold dec_step at 1, dget_r in F.
  destruct (dget rem v); cbn [bind] in F; [apply (IH _ F)|congruence]. Qed.
Lemma count_fold_err f vals : forall rem can c l' v, In (c :: l') vals -> r_ignore c = false -> resolved (c :: l') = true -> In v (f c) -> dget rem v = None ->
  foldM (count_step f) vals (rem, can) = Err KeyError.
Proof. induction vals as [|l vals IH]; intros rem can c l' v I J R V N; [destruct I|]. cbn [foldM].
  destruct (count_step f (rem, can) l) as [[rem1 can1]|e] eqn:E; cbn [bind].
  - destruct (count_step_ok _ _ _ _ _ _ E) as [A B]. destruct I as [->|I]; [destruct (B c l' eq_refl J R v V N)|]. apply (IH _ _ c l' v I J R V).
    destruct (dget rem1 v) eqn:D; [|reflexivity]. exfalso. apply (proj1 (A v)); congruence.
  - f_equal. apply (count_step_err _ _ _ _ E). Qed.

(** *** The originals *)
Lemma times_one f v c : times f v [c] = Z.of_nat (count_occ Z.eq_dec (f c) v).
Proof. unfold times. cbn [flat_map]. rewrite app_nil_r. reflexivity. Qed.
Lemma times_cons f v c l : times f v (c :: l) = times f v [c] + times f v l.
Proof. apply (times_app f v [c] l). Qed.
Lemma times_in f v c l : In c l -> times f v [c] <= times f v l.
Proof. induction l as [|x l IH]; intros I; [destruct I|]. rewrite (times_cons f v x l). pose proof (times_nonneg f v l). pose proof (times_nonneg f v [x]). destruct I as [->|I]; [lia|]. specialize (IH I). lia. Qed.
Lemma times_perm f v l l' : Permutation l l' -> times f v l = times f v l'.
Proof. intros P. unfold times. f_equal. apply (Permutation_count_occ Z.eq_dec). apply Permutation_flat_map. exact P. Qed.
Lemma times_pos f v c : In v (f c) -> 0 < times f v [c].
Proof. rewrite times_one. intros I. apply (count_occ_In Z.eq_dec) in I. lia. Qed.

(** An original of the address, with the values of one of its defined candidates. *)
Definition stands_for (f : rcand -> list Z) (kv : Z * list rcand) (o : rcand) : Prop := exists c, In c (live (snd kv)) /\ f c = f o.

Lemma resolved_one f l o : stands_for f l o -> resolved (snd l) = true -> forall v, times f v (live (snd l)) = times f v [o].
Proof. intros (c & I & E) R v. unfold resolved in R. apply Nat.eqb_eq in R. destruct (live (snd l)) as [|x [|y r]]; try discriminate. destruct I as [->|[]]. rewrite !times_one, E. reflexivity. Qed.

Lemma balance f v p os : Forall2 (stands_for f) p os -> exists R, times f v os = used_up f v p + R /\ 0 <= R <= still_open f v p /\
  (forall a l o, In ((a, l), o) (combine p os) -> resolved l = false -> In v (f o) -> 0 < R).
Proof. intros F. unfold used_up, still_open. induction F as [|[a l] o p os S F (R & E & L & P)].
  - exists 0. split; [reflexivity|]. split; [cbn; lia|]. intros ? ? ? [].
  - cbn [dvalues map snd filter]. rewrite times_cons. change (map snd p) with (dvalues p). destruct (resolved l) eqn:D; cbn [negb flat_map].
    + exists R. rewrite times_app. pose proof (resolved_one f _ _ S D v) as T. cbn [snd] in T. split; [lia|]. split; [exact L|].
      intros a' l' o' [H|H] U V; [injection H as <- <- <-; congruence|]. exact (P a' l' o' H U V).
    + exists (times f v [o] + R). rewrite times_app. destruct S as (c & I & Ec). pose proof (times_in f v c _ I) as T. assert (T' : times f v [c] = times f v [o]) by (rewrite !times_one, Ec; reflexivity).
      pose proof (times_nonneg f v [o]). cbn [snd] in *. split; [lia|]. split; [lia|].
      intros a' l' o' [H'|H'] U V; [injection H' as <- <- <-; pose proof (times_pos f v o V); lia|]. pose proof (P a' l' o' H' U V). lia. Qed.

Lemma originals_of orig p : original_among orig p -> exists os, Permutation orig os /\ Forall2 (fun kv o => In o orig /\ d_addr (r_inst o) = fst kv) p os /\
  forall r, Forall2 (stands_for (values_of r)) p os.
Proof. intros (N1 & N2 & H1 & H2 & H3).
  assert (A : exists os, Forall2 (fun kv o => In o orig /\ d_addr (r_inst o) = fst kv) p os).
  { clear N2 H1 H3. induction p as [|[a l] p IH]; [exists []; constructor|]. destruct IH as (os & F); [intros x I; apply H2; right; exact I|].
    destruct (H2 a (or_introl eq_refl)) as (o & Io & E). exists (o :: os). constructor; [split; assumption|exact F]. }
  destruct A as (os & F). exists os.
  assert (M : map (fun o => d_addr (r_inst o)) os = dkeys p).
  { clear - F. induction F as [|kv o p os [_ E] F IH]; [reflexivity|]. cbn [map dkeys]. f_equal; [exact E|exact IH]. }
  split; [|split; [exact F|]].
  - apply NoDup_Permutation.
    + apply NoDup_map_inv in N1. exact N1.
    + rewrite <- M in N2. apply NoDup_map_inv in N2. exact N2.
    + intros o. split; intros I.
      * destruct (H1 o I) as (_ & l & c & G & _). assert (K : In (d_addr (r_inst o)) (map (fun o => d_addr (r_inst o)) os)) by (rewrite M; apply dget_some_in; eauto).
        apply in_map_iff in K. destruct K as (o' & E & I'). assert (J : In o' orig).
        { clear - F I'. induction F as [|kv x p os [H _] F IH]; [destruct I'|]. destruct I' as [->|I']; [exact H|exact (IH I')]. }
        assert (o' = o) as ->; [|exact I'].
        clear - N1 I J E. induction orig as [|x l IH]; [destruct I|]. cbn [map] in N1. inversion N1 as [|? ? Nx N']; subst.
        destruct I as [->|I], J as [->|J]; [reflexivity| | |exact (IH N' I J)]; exfalso; apply Nx; [rewrite <- E|rewrite E]; apply (in_map (fun o => d_addr (r_inst o))); assumption.
      * clear - F I. induction F as [|kv x p os [H _] F IH]; [destruct I|]. destruct I as [->|I]; [exact H|exact (IH I)].
  - intros r. assert (G : forall kv, In kv p -> dget p (fst kv) = Some (snd kv)) by (intros [a l] I; apply dget_nodup_in; assumption). 
    assert (W : forall q os, Forall2 (fun kv o => In o orig /\ d_addr (r_inst o) = fst kv) q os -> (forall kv, In kv q -> dget p (fst kv) = Some (snd kv)) -> Forall2 (stands_for (values_of r)) q os); [|exact (W p os F G)].
    clear - H1. intros q os F G. induction F as [|kv o q os [I E] F IH]; constructor.
    + destruct (H1 o I) as (Ig & l & c & Gl & Ic & Ei & Er). rewrite E, (G kv (or_introl eq_refl)) in Gl. injection Gl as Gl. exists c. split.
      * unfold live. apply filter_In. rewrite Gl. split; [exact Ic|]. unfold r_ignore in *. rewrite Ei, Ig. reflexivity.
      * destruct r; cbn [values_of]; congruence.
    + apply IH. intros x Ix. apply G. right. exact Ix. Qed.

(** What the metadata says about a value that some candidate has. *)
Lemma counted r orig p v a l c : original_among orig p -> In (a, l) p -> In c l -> In v (values_of r c) ->
  dget (counts_of r (collect new_collector (map r_inst orig))) v = entry_for (times (values_of r) v orig).
Proof. intros (N1 & N2 & H1 & H2 & H3) I J V. destruct (C34_counts [map r_inst orig] v) as (A & B & C). cbn [fold_left concat] in A, B, C. rewrite app_nil_r in A, B, C.
  assert (K : kept (map r_inst orig) = map r_inst orig).
  { unfold kept. assert (G : forall o, In o orig -> r_ignore o = false) by (intros o Io; apply H1, Io). clear - G. induction orig as [|o l IH]; [reflexivity|]. cbn [map filter].
    pose proof (G o (or_introl eq_refl)) as E. unfold r_ignore in E. rewrite E. cbn [negb]. f_equal. apply IH. intros; apply G; right; assumption. }
  assert (T : forall g : dinst -> Z, how_many (fun i => g i =? v) (map r_inst orig) = times (fun c => [g (r_inst c)]) v orig).
  { intros g. unfold how_many. rewrite K. unfold times. f_equal. clear. induction orig as [|o l IH]; [reflexivity|]. cbn [map filter flat_map app count_occ].
    destruct (Z.eq_dec (g (r_inst o)) v) as [->|N]; [rewrite Z.eqb_refl; cbn [length]; f_equal; exact IH|]. replace (g (r_inst o) =? v) with false by lia. exact IH. }
  destruct r; cbn [counts_of].
  - rewrite A, T. reflexivity.
  - rewrite B, T. reflexivity.
  - rewrite C. f_equal. unfold occurrences. rewrite K. unfold times. f_equal. destruct (H3 a l c I J) as (_ & X16 & X18). cbn [values_of] in V.
    assert (V16 : v <> 16) by congruence. assert (V18 : v <> 18) by congruence.
    assert (G : forall o, In o orig -> exists more, d_used (r_inst o) = r_regs o ++ more /\ forall x, In x more -> x = 16 \/ x = 18).
    { intros o Io. destruct (H1 o Io) as (_ & l' & c' & Gl & Ic & Ei & Er). destruct (H3 _ _ c' (dget_in _ _ _ Gl) Ic) as (M & _). rewrite Ei, Er in M. exact M. }
    clear - G V16 V18. induction orig as [|o l IH]; [reflexivity|]. cbn [map flat_map]. rewrite !count_occ_app, IH by (intros; apply G; right; assumption).
    destruct (G o (or_introl eq_refl)) as (more & E & M). rewrite E, count_occ_app. cbn [values_of]. assert (Z0 : count_occ Z.eq_dec more v = 0%nat); [|lia].
    apply count_occ_not_In. intros X. destruct (M v X); congruence. Qed.

Lemma known_of_original r orig p : original_among orig p -> known_values r (collect new_collector (map r_inst orig)) p.
Proof. intros O a l c v I L V. destruct (originals_of orig p O) as (os & P & F & S).
  assert (J : In c l) by (assert (X : In c (live l)) by (rewrite L; left; reflexivity); apply filter_In in X; apply X).
  rewrite (counted r orig p v a l c O I J V), (times_perm _ v _ _ P).
  destruct (balance (values_of r) v p os (S r)) as (R & E & B & _). unfold entry_for.
  assert (U : 0 < used_up (values_of r) v p); [|replace (times (values_of r) v os =? 0) with false by lia; discriminate].
  unfold used_up. assert (T : In c (flat_map live (filter resolved (dvalues p)))).
  { apply in_flat_map. exists l. split; [|rewrite L; left; reflexivity]. apply filter_In. split; [apply dvalues_in; exists a; exact I|]. unfold resolved. rewrite L. reflexivity. }
  pose proof (times_in (values_of r) v c _ T). pose proof (times_pos (values_of r) v c V). lia. Qed.

Lemma chance_bounds r orig p a l c v : original_among orig p -> In (a, l) p -> In c l -> In v (values_of r c) ->
  prob (chance (values_of r) (counts_of r (collect new_collector (map r_inst orig))) p v) /\
  (resolved l = false -> (exists o, In o orig /\ d_addr (r_inst o) = a /\ values_of r c = values_of r o) -> r_ignore c = false ->
   (0 < chance (values_of r) (counts_of r (collect new_collector (map r_inst orig))) p v)%Q).
Proof. intros O I J V. pose proof (counted r orig p v a l c O I J V) as E. destruct (originals_of orig p O) as (os & P & F & S).
  rewrite (times_perm _ v _ _ P) in E. destruct (balance (values_of r) v p os (S r)) as (R & B & L & T). unfold chance. rewrite E. unfold entry_for.
  assert (Pos : resolved l = false -> (exists o, In o orig /\ d_addr (r_inst o) = a /\ values_of r c = values_of r o) -> 0 < R).
  { intros U (o & Io & Ao & Vo). apply (T a l o); [|exact U|congruence].
    destruct O as (N1 & N2 & _). assert (X : exists o', In ((a, l), o') (combine p os) /\ In o' orig /\ d_addr (r_inst o') = a).
    { clear - F I. induction F as [|kv o p os [H H'] F IH]; [destruct I|]. destruct I as [->|I]; [exists o; cbn [combine]; auto using in_eq|]. destruct (IH I) as (o' & X & Y). exists o'. split; [right; exact X|exact Y]. }
    destruct X as (o' & X & Io' & Ao'). assert (o' = o) as <-; [|exact X].
    assert (Ea : d_addr (r_inst o') = d_addr (r_inst o)) by congruence. clear - N1 Io Io' Ea.
    induction orig as [|x xs IH]; [destruct Io|]. cbn [map] in N1. inversion N1 as [|? ? Nx N']; subst.
    destruct Io as [->|Io], Io' as [->|Io']; [reflexivity| | |exact (IH N' Io Io')]; exfalso; apply Nx; [rewrite <- Ea|rewrite Ea]; apply (in_map (fun o => d_addr (r_inst o))); assumption. }
  assert (UN : 0 <= used_up (values_of r) v p) by apply times_nonneg.
  destruct (Z.eqb_spec (times (values_of r) v os) 0) as [Z0|Z0].
  - split; [apply prob0|]. intros U X G. specialize (Pos U X). lia.
  - destruct (Z.eqb_spec (still_open (values_of r) v p) 0) as [Q0|Q0].
    + split; [apply prob0|]. intros U X G. specialize (Pos U X). lia.
    + replace (times (values_of r) v os - used_up (values_of r) v p) with R by lia. destruct (fraction R (still_open (values_of r) v p)) as (A1 & A2 & _); [lia|lia|].
      split; [exact A1|]. intros U X _. apply (A2 (Pos U X)). Qed.

Lemma mean_bounds (l : list Q) : Forall prob l -> prob (qsum l / inject_Z (Z.of_nat (length l))) /\
  (l <> [] -> Forall (fun q => (0 < q)%Q) l -> (0 < qsum l / inject_Z (Z.of_nat (length l)))%Q).
Proof. intros F. assert (B : (0 <= qsum l /\ qsum l <= inject_Z (Z.of_nat (length l)))%Q).
  { unfold qsum. induction F as [|q l [A B] F IH]; [split; apply Qle_refl|]. cbn [fold_right length]. rewrite Nat2Z.inj_succ. unfold Z.succ. rewrite inject_Z_plus. change (inject_Z 1) with 1%Q. lra. }
  destruct l as [|q l].
  - split; [split; vm_compute; discriminate|]. intros N; congruence.
  - assert (P : (0 < inject_Z (Z.of_nat (length (q :: l))))%Q) by (change 0%Q with (inject_Z 0); rewrite <- Zlt_Qlt; cbn [length]; lia).
    split; [split|].
    + apply Qle_shift_div_l; [exact P|]. lra.
    + apply Qle_shift_div_r; [exact P|]. lra.
    + intros _ G. apply Qlt_shift_div_l; [exact P|]. rewrite Qmult_0_l. unfold qsum. cbn [fold_right]. inversion G as [|? ? G1 G2]; subst.
      assert (0 <= fold_right Qplus 0 l)%Q; [|lra]. clear - G2. induction G2 as [|x l H G IH]; cbn [fold_right]; [lra|lra]. Qed.
