(** When the renaming raises nothing. *)
From Verif Require Import ListLemmas CfgProps.
From Verif Require Export SsaProofs8.
From Coq Require Import ZifyBool ZifyNat.

Definition len (st : ssa) (v : Z) : Z := match dget (s_stack st) v with Some l => Z.of_nat (length l) | None => 0 end.
Definition storage (v : Z) : Prop := 0 <= v < 20.
Definition full (st : ssa) : Prop := dkeys (s_counter st) = zrange 0 storage_count /\ dkeys (s_stack st) = zrange 0 storage_count.
Lemma full_some st v : full st -> storage v -> exists c l, dget (s_counter st) v = Some c /\ dget (s_stack st) v = Some l.
Proof. intros (K1 & K2) S. assert (I : In v (zrange 0 storage_count)) by (apply in_zrange; exact S).
  assert (I1 : In v (dkeys (s_counter st))) by now rewrite K1. assert (I2 : In v (dkeys (s_stack st))) by now rewrite K2.
  apply dget_some_in in I1 as [c Ec]. apply dget_some_in in I2 as [l El]. eauto. Qed.
Lemma set_keys {A} (d : dict A) v x l : dkeys d = l -> In v l -> dkeys (dset d v x) = l.
Proof. intros <- I. rewrite dkeys_dset. unfold dmem. apply dget_some_in in I as [y ->]. reflexivity. Qed.
Lemma len_set st v l c ph rd wr x : len (Ssa c (dset (s_stack st) v l) ph rd wr) x = if x =? v then Z.of_nat (length l) else len st x.
Proof. unfold len. cbn [s_stack]. rewrite dget_dset. destruct (x =? v); reflexivity. Qed.
Lemma new_total st v : full st -> storage v -> exists st' k, new_name st v = Ok (st', k) /\ full st' /\ s_phi st' = s_phi st /\ forall x, len st' x = len st x + occ x [v].
Proof. intros F S. destruct (full_some st v F S) as (c & l & Ec & El). unfold new_name, dget_r. rewrite Ec, El. cbn [bind]. do 2 eexists. split; [reflexivity|]. split.
  - destruct F as [K1 K2]. split; cbn [s_counter s_stack]; apply set_keys; auto; apply in_zrange; exact S.
  - split; [reflexivity|]. intros x. rewrite len_set, occ_cons, occ_nil. destruct (Z.eqb_spec x v) as [->|]; [|lia]. unfold len. rewrite El. cbn [length]. lia. Qed.
Lemma pop_total st v : full st -> storage v -> 1 <= len st v -> exists st', pop st v = Ok st' /\ full st' /\ s_phi st' = s_phi st /\ forall x, len st' x = len st x - occ x [v].
Proof. intros F S L. destruct (full_some st v F S) as (c & l & Ec & El). unfold len in L. rewrite El in L. unfold pop, dget_r. rewrite El. cbn [bind]. destruct l as [|t l]; [cbn in L; lia|]. eexists. split; [reflexivity|]. split.
  - destruct F as [K1 K2]. split; cbn [s_counter s_stack]; [exact K1|]. apply set_keys; auto; apply in_zrange; exact S.
  - split; [reflexivity|]. intros x. rewrite len_set, occ_cons, occ_nil. destruct (Z.eqb_spec x v) as [->|]; [|lia]. unfold len. rewrite El. destruct (exists_last (l := t :: l)) as (m & y & Em); [discriminate|]. rewrite Em, removelast_last, app_length. cbn [length]. lia. Qed.
Lemma top_total st v : full st -> storage v -> 1 <= len st v -> exists t, top st v = Ok t.
Proof. intros F S L. destruct (full_some st v F S) as (c & l & Ec & El). unfold len in L. rewrite El in L. unfold top, dget_r. rewrite El. cbn [bind]. destruct l as [|t l]; [cbn in L; lia|]. eauto. Qed.
Lemma phis_total st n : full st -> Forall storage (pv st n) -> exists st', rename_phis st n = Ok st' /\ full st' /\ forall x, len st' x = len st x + occ x (pv st n).
Proof. intros F S. unfold rename_phis, pv in *.
  assert (L : forall l st d, full st -> Forall storage (map (fun e : name * list name => fst (fst e)) l) -> exists st' d',
    foldM (fun (s : ssa * phis) e => let '(st, d) := s in let* (st, k) := new_name st (fst (fst e)) in Ok (st, pset d k (snd e))) l (st, d) = Ok (st', d') /\ full st' /\ forall x, len st' x = len st x + occ x (map (fun e => fst (fst e)) l)).
  { clear. induction l as [|e l IH]; intros st d F S; [cbn [foldM map]; exists st, d; split; [reflexivity|]; split; [exact F|]; intros x; rewrite occ_nil; lia|]. cbn [map] in *. inversion S as [|? ? S1 S2]; subst. cbn [foldM].
    destruct (new_total st (fst (fst e)) F S1) as (s1 & k & E1 & F1 & _ & L1). rewrite E1. cbn [bind]. destruct (IH s1 (pset d k (snd e)) F1 S2) as (s2 & d2 & E2 & F2 & L2). exists s2, d2. split; [exact E2|]. split; [exact F2|]. intros x. rewrite L2, L1, !occ_cons, occ_nil. lia. }
  destruct (L (s_phi st n) st [] F S) as (s1 & d & E1 & F1 & L1). rewrite E1. cbn [bind]. eexists. split; [reflexivity|]. split; [exact F1|exact L1]. Qed.
Lemma reads_total i : forall l st, full st -> Forall storage l -> (forall x, storage x -> 1 <= len st x) -> exists st', foldM (rename_read i) l st = Ok st' /\ full st' /\ s_phi st' = s_phi st /\ forall x, len st' x = len st x.
Proof. induction l as [|r l IH]; intros st F S L; [exists st; cbn; auto|]. inversion S as [|? ? S1 S2]; subst. cbn [foldM]. unfold rename_read at 1. destruct (top_total st r F S1 (L r S1)) as [t ->]. cbn [bind].
  destruct (nmember (r, t) (s_read st i)).
  - apply IH; assumption.
  - set (st1 := Ssa _ _ _ _ _). destruct (IH st1) as (s2 & E2 & F2 & P2 & L2); [exact F|exact S2|exact L|]. exists s2. auto. Qed.
Lemma writes_total i : forall l st, full st -> Forall storage l -> exists st', foldM (rename_write i) l st = Ok st' /\ full st' /\ s_phi st' = s_phi st /\ forall x, len st' x = len st x + occ x l.
Proof. induction l as [|w l IH]; intros st F S; [exists st; cbn [foldM flat_map]; split; [reflexivity|]; split; [exact F|]; split; [reflexivity|]; intros x; rewrite occ_nil; lia|]. inversion S as [|? ? S1 S2]; subst. cbn [foldM]. unfold rename_write at 1.
  destruct (new_total st w F S1) as (s1 & k & -> & F1 & P1 & L1). cbn [bind]. set (st1 := Ssa _ _ _ _ _). destruct (IH st1) as (s2 & E2 & F2 & P2 & L2); [exact F1|exact S2|]. exists s2. split; [exact E2|]. split; [exact F2|]. split; [rewrite P2; exact P1|].
  intros x. rewrite L2. change (len st1 x) with (len s1 x). rewrite L1, !occ_cons, occ_nil. lia. Qed.
Lemma inst_total p st i : full st -> Forall storage (p_reads p i) -> Forall storage (p_writes p i) -> (forall x, storage x -> 1 <= len st x) -> exists st', rename_inst p st i = Ok st' /\ full st' /\ s_phi st' = s_phi st /\ forall x, len st' x = len st x + occ x (p_writes p i).
Proof. intros F R W L. unfold rename_inst. destruct (reads_total i _ st F R L) as (s1 & -> & F1 & P1 & L1). cbn [bind]. destruct (writes_total i _ s1 F1 W) as (s2 & -> & F2 & P2 & L2). exists s2. split; [reflexivity|]. split; [exact F2|]. split; [congruence|]. intros x. now rewrite L2, L1. Qed.
Lemma insts_total p : forall l st, full st -> (forall i, In i l -> Forall storage (p_reads p i) /\ Forall storage (p_writes p i)) -> (forall x, storage x -> 1 <= len st x) -> exists st', foldM (rename_inst p) l st = Ok st' /\ full st' /\ s_phi st' = s_phi st /\ forall x, len st' x = len st x + occ x (flat_map (p_writes p) l).
Proof. induction l as [|i l IH]; intros st F H L; [exists st; cbn [foldM flat_map]; split; [reflexivity|]; split; [exact F|]; split; [reflexivity|]; intros x; rewrite occ_nil; lia|]. cbn [foldM flat_map]. destruct (H i (or_introl eq_refl)) as [R W].
  destruct (inst_total p st i F R W L) as (s1 & -> & F1 & P1 & L1). cbn [bind]. destruct (IH s1 F1) as (s2 & -> & F2 & P2 & L2); [intros j J; apply H; now right|intros x X; rewrite L1; pose proof (occ_pos x (p_writes p i)); specialize (L x X); lia|].
  exists s2. split; [reflexivity|]. split; [exact F2|]. split; [congruence|]. intros x. rewrite L2, L1, occ_app. lia. Qed.
Lemma fill_total st b : full st -> Forall storage (pv st b) -> (forall x, storage x -> 1 <= len st x) -> exists st', fill_phis st b = Ok st' /\ full st' /\ (forall m, pv st' m = pv st m) /\ forall x, len st' x = len st x.
Proof. intros F S L. unfold fill_phis.
  assert (H : forall l, Forall storage (map (fun e : name * list name => fst (fst e)) l) -> exists d, mapM (fun e => let* t := top st (fst (fst e)) in Ok (fst e, snd e ++ [(fst (fst e), t)])) l = Ok d /\ map (fun e => fst (fst e)) d = map (fun e => fst (fst e)) l).
  { induction l as [|e l IH]; intros Sl; [exists []; auto|]. cbn [map] in Sl. inversion Sl as [|? ? S1 S2]; subst. cbn [mapM]. destruct (top_total st (fst (fst e)) F S1 (L _ S1)) as [t ->]. cbn [bind]. destruct (IH S2) as (d & -> & Ed). cbn [bind]. eexists. split; [reflexivity|]. cbn [map fst]. now rewrite Ed. }
  destruct (H (s_phi st b) S) as (d & -> & Ed). cbn [bind]. eexists. split; [reflexivity|]. split; [exact F|]. split; [|auto]. intros m. unfold pv, with_phi. cbn [s_phi]. unfold upd. destruct (Z.eqb_spec m b) as [->|]; [exact Ed|reflexivity]. Qed.
Lemma fills_total : forall l st, full st -> (forall b, Forall storage (pv st b)) -> (forall x, storage x -> 1 <= len st x) -> exists st', foldM fill_phis l st = Ok st' /\ full st' /\ (forall m, pv st' m = pv st m) /\ forall x, len st' x = len st x.
Proof. induction l as [|b l IH]; intros st F S L; [exists st; cbn; auto|]. cbn [foldM]. destruct (fill_total st b F (S b) L) as (s1 & -> & F1 & P1 & L1). cbn [bind].
  destruct (IH s1 F1) as (s2 & -> & F2 & P2 & L2); [intros m; rewrite P1; apply S|intros x X; rewrite L1; auto|]. exists s2. split; [reflexivity|]. split; [exact F2|]. split; [intros m; now rewrite P2|]. intros x. now rewrite L2. Qed.

(** How often a roll back of block [n] takes [x] from its stack. *)
Definition writers (p : sprog) (n x : Z) : Z := Z.of_nat (length (filter (fun i => zmem x (p_writes p i)) (p_inst p n))).
Definition pops (p : sprog) (V : Z -> list Z) (n x : Z) : Z := occ x (V n) * (1 + writers p n x).
Lemma writers_le p x : forall l, Z.of_nat (length (filter (fun i => zmem x (p_writes p i)) l)) <= occ x (flat_map (p_writes p) l).
Proof. induction l as [|i l IH]; cbn [filter flat_map]; [cbn [length]; rewrite occ_nil; lia|]. rewrite occ_app. pose proof (occ_pos x (p_writes p i)). destruct (zmem x (p_writes p i)) eqn:Z; [|lia]. apply zmem_in, occ_in in Z. cbn [length]. lia. Qed.
Lemma pops_le p V n x : NoDup (V n) -> 0 <= pops p V n x <= occ x (definitions p V n).
Proof. intros N. unfold pops, definitions. rewrite occ_app. pose proof (writers_le p x (p_inst p n)). unfold writers. destruct (in_dec Z.eq_dec x (V n)) as [I|I]; [rewrite (nodup_occ x _ N I)|rewrite (occ_0 _ _ I)]; pose proof (occ_pos x (flat_map (p_writes p) (p_inst p n))); lia. Qed.
Lemma pops_some v : forall l (f : nat -> bool) st, full st -> storage v -> Z.of_nat (length (filter f l)) <= len st v -> exists st', foldM (fun st (i : nat) => if f i then pop st v else Ok st) l st = Ok st' /\ full st' /\ s_phi st' = s_phi st /\ forall x, len st' x = len st x - (if x =? v then Z.of_nat (length (filter f l)) else 0).
Proof. intros l f. induction l as [|i l IH]; intros st F S L; cbn [filter foldM] in *.
  - exists st. split; [reflexivity|]. split; [exact F|]. split; [reflexivity|]. intros x. destruct (x =? v); cbn; lia.
  - destruct (f i); cbn [length] in L.
    + destruct (pop_total st v F S) as (s1 & -> & F1 & P1 & L1); [lia|]. cbn [bind]. destruct (IH s1 F1 S) as (s2 & -> & F2 & P2 & L2); [rewrite L1, occ_cons, occ_nil, Z.eqb_refl; lia|]. exists s2. split; [reflexivity|]. split; [exact F2|]. split; [congruence|]. intros x. rewrite L2, L1, occ_cons, occ_nil. cbn [length]. destruct (x =? v); lia.
    + cbn [bind]. apply IH; auto. Qed.
Lemma roll_total p st n : full st -> Forall storage (pv st n) -> (forall x, pops p (pv st) n x <= len st x) -> exists st', roll_back p st n = Ok st' /\ full st' /\ s_phi st' = s_phi st /\ forall x, len st' x = len st x - pops p (pv st) n x.
Proof. intros F S. unfold roll_back, pops, pv in *.
  assert (H : forall l st, full st -> Forall storage (map (fun e : name * list name => fst (fst e)) l) -> (forall x, occ x (map (fun e : name * list name => fst (fst e)) l) * (1 + writers p n x) <= len st x) -> exists st',
    foldM (fun st (e : name * list name) => let* s := foldM (fun st i => if zmem (fst (fst e)) (p_writes p i) then pop st (fst (fst e)) else Ok st) (p_inst p n) st in pop s (fst (fst e))) l st = Ok st' /\
    full st' /\ s_phi st' = s_phi st /\ forall x, len st' x = len st x - occ x (map (fun e => fst (fst e)) l) * (1 + writers p n x)).
  { clear. induction l as [|e l IH]; intros st F S L; cbn [map foldM] in *.
    - exists st. split; [reflexivity|]. split; [exact F|]. split; [reflexivity|]. intros x. rewrite occ_nil. lia.
    - inversion S as [|? ? S1 S2]; subst. set (v := fst (fst e)) in *. clearbody v. pose proof (L v) as Lv. rewrite occ_cons, Z.eqb_refl in Lv. pose proof (occ_pos v (map (fun e : name * list name => fst (fst e)) l)) as Po.
      assert (W0 : 0 <= writers p n v) by (unfold writers; lia).
      destruct (pops_some v (p_inst p n) (fun i => zmem v (p_writes p i)) st F S1) as (s1 & -> & F1 & P1 & L1); [fold (writers p n v); nia|]. cbn [bind]. fold (writers p n v) in L1.
      destruct (pop_total s1 v F1 S1) as (s2 & -> & F2 & P2 & L2); [rewrite L1, Z.eqb_refl; nia|]. cbn [bind].
      destruct (IH s2 F2 S2) as (s3 & -> & F3 & P3 & L3).
      { intros x. rewrite L2, L1, occ_cons, occ_nil. specialize (L x). rewrite occ_cons in L. destruct (Z.eqb_spec x v) as [Hx|Hx]; [rewrite Hx in *|]; nia. }
      exists s3. split; [reflexivity|]. split; [exact F3|]. split; [congruence|]. intros x. rewrite L3, L2, L1, !occ_cons, occ_nil. destruct (Z.eqb_spec x v) as [Hx|Hx]; [rewrite Hx in *|]; nia. }
  intros L. exact (H (s_phi st n) st F S L). Qed.

Definition safe (r : result ssa) (post : ssa -> Prop) : Prop := match r with Ok st => post st | Err e => e = OutOfFuel end.
Lemma node_total p h V : (forall b, NoDup (V b) /\ Forall storage (V b)) -> (forall i, Forall storage (p_reads p i) /\ Forall storage (p_writes p i)) ->
  (forall n c, h_children h n <> [] -> c = last (h_children h n) n -> h_children h c = [] -> V c = []) ->
  forall fuel n st, full st -> good st -> (forall b, pv st b = V b) -> (forall x, storage x -> 1 <= len st x) ->
  safe (rename_node fuel p h st n) (fun st' => full st' /\ good st' /\ (forall b, pv st' b = V b) /\ forall x, storage x -> len st x + (match h_children h n with [] => 0 | _ => pops p V n x end) <= len st' x).
Proof.
  intros HV HI HL. induction fuel as [|fuel IH]; intros n st F G P L; [reflexivity|].
  assert (Es : rename_node (S fuel) p h st n = let* st := rename_phis st n in let* st := foldM (rename_inst p) (p_inst p n) st in let* st := foldM fill_phis (h_succ h n) st in
    let* st := foldM (rename_node fuel p h) (h_children h n) st in roll_back p st (last (h_children h n) n)) by reflexivity.
  rewrite Es. clear Es. assert (Ky : forall s, full s -> dkeys (s_counter s) = dkeys (s_stack s)) by (intros s [A B]; congruence).
  destruct (phis_total st n F) as (s1 & E1 & F1 & L1); [rewrite P; apply HV|]. rewrite E1. cbn [bind]. destruct (phis_sim n st s1 G (Ky _ F) E1) as (G1 & _ & S1).
  assert (P1 : forall b, pv s1 b = V b). { intros b. change (pv s1 b) with (pv (strip s1) b). rewrite S1. destruct (phis_step (strip st) n) as (_ & _ & _ & A4 & A5 & _). rewrite pv_fst. destruct (Z.eq_dec b n) as [->|Nb]; [rewrite A5, numbered_fst; apply P|]. rewrite (A4 b Nb), <- pv_fst. apply P. }
  assert (L1' : forall x, storage x -> 1 <= len s1 x) by (intros x X; rewrite L1; pose proof (occ_pos x (pv st n)); specialize (L x X); lia).
  destruct (insts_total p (p_inst p n) s1 F1 ltac:(intros; apply HI) L1') as (s2 & E2 & F2 & Q2 & L2). rewrite E2. cbn [bind]. destruct (sim_fold _ _ (inst_sim p) (p_inst p n) s1 s2 G1 (Ky _ F1) E2) as (G2 & _ & _).
  assert (P2 : forall b, pv s2 b = V b) by (intros b; rewrite <- P1; unfold pv; now rewrite Q2).
  assert (L2' : forall x, storage x -> 1 <= len s2 x) by (intros x X; rewrite L2; pose proof (occ_pos x (flat_map (p_writes p) (p_inst p n))); specialize (L1' x X); lia).
  destruct (fills_total (h_succ h n) s2 F2 ltac:(intros; rewrite P2; apply HV) L2') as (s3 & E3 & F3 & Q3 & L3). rewrite E3. cbn [bind]. destruct (sim_fold _ _ fill_sim (h_succ h n) s2 s3 G2 (Ky _ F2) E3) as (G3 & _ & _).
  assert (P3 : forall b, pv s3 b = V b) by (intros b; now rewrite Q3).
  assert (D3 : forall x, len s3 x = len st x + occ x (definitions p V n)). { intros x. rewrite L3, L2, L1, P. unfold definitions. rewrite occ_app. lia. }
  assert (L3' : forall x, storage x -> 1 <= len s3 x) by (intros x X; rewrite L3; auto).
  set (bonus := fun c x => match h_children h c with [] => 0 | _ => pops p V c x end).
  assert (Bp : forall c x, 0 <= bonus c x). { intros c x. unfold bonus. destruct (h_children h c); [lia|]. apply pops_le, HV. }
  assert (C : forall cs s, full s -> good s -> (forall b, pv s b = V b) -> (forall x, storage x -> 1 <= len s x) ->
    safe (foldM (rename_node fuel p h) cs s) (fun s' => full s' /\ good s' /\ (forall b, pv s' b = V b) /\ forall x, storage x -> len s x + match cs with [] => 0 | _ => bonus (last cs n) x end <= len s' x)).
  { clear - IH Bp. induction cs as [|c cs IHc]; intros s F G P L; [cbn; split; [auto|]; split; [auto|]; split; [auto|]; intros; lia|]. cbn [foldM]. pose proof (IH c s F G P L) as H. destruct (rename_node fuel p h s c) as [s1|e]; cbn [safe bind] in *; [|exact H].
    destruct H as (F1 & G1 & P1 & L1). fold (bonus c) in L1. assert (L1' : forall x, storage x -> len s x + bonus c x <= len s1 x) by exact L1.
    pose proof (IHc s1 F1 G1 P1) as H2. destruct (foldM (rename_node fuel p h) cs s1) as [s2|e]; cbn [safe] in *; [|apply H2; intros x X; specialize (L x X); specialize (L1' x X); specialize (Bp c x); lia].
    destruct H2 as (F2 & G2 & P2 & L2); [intros x X; specialize (L x X); specialize (L1' x X); specialize (Bp c x); lia|]. split; [auto|]. split; [auto|]. split; [auto|].
    intros x X. specialize (L2 x X). specialize (L1' x X). destruct cs as [|c2 cs]; [cbn [last] in *; lia|]. change (last (c :: c2 :: cs) n) with (last (c2 :: cs) n). specialize (Bp c x). lia. }
  pose proof (C (h_children h n) s3 F3 G3 P3 L3') as H4. destruct (foldM (rename_node fuel p h) (h_children h n) s3) as [s4|e]; cbn [safe bind] in *; [|exact H4]. destruct H4 as (F4 & G4 & P4 & L4).
  assert (Pp : forall m x, pops p (pv s4) m x = pops p V m x) by (intros m x; unfold pops; now rewrite P4).
  destruct (roll_total p s4 (last (h_children h n) n) F4) as (s5 & E5 & F5 & Q5 & L5).
  { rewrite P4. apply HV. }
  { intros x. rewrite Pp. destruct (in_dec Z.eq_dec x (zrange 0 storage_count)) as [X|X].
    - apply in_zrange in X. specialize (L4 x X). specialize (L3' x X). specialize (D3 x). destruct (h_children h n) as [|c cs] eqn:Ec.
      + cbn [last]. pose proof (pops_le p V n x (proj1 (HV n))). specialize (L x X). lia.
      + unfold bonus in L4. destruct (h_children h (last (c :: cs) n)) eqn:Ed; [|lia]. unfold pops. rewrite (HL n (last (c :: cs) n)); [rewrite occ_nil; lia|rewrite Ec; discriminate|now rewrite Ec|exact Ed].
    - unfold pops. rewrite occ_0; [unfold len; destruct (dget (s_stack s4) x); lia|]. intros I. apply X, in_zrange. destruct (HV (last (h_children h n) n)) as [_ Fv]. rewrite Forall_forall in Fv. exact (Fv x I). }
  rewrite E5. cbn [safe]. destruct (roll_sim p _ s4 s5 G4 (Ky _ F4) E5) as (G5 & _ & _). split; [exact F5|]. split; [exact G5|]. split; [intros b; unfold pv; rewrite Q5; apply P4|].
  intros x X. rewrite L5, Pp. specialize (L4 x X). specialize (D3 x). destruct (h_children h n) as [|c cs] eqn:Ec.
  - cbn [last]. pose proof (pops_le p V n x (proj1 (HV n))). lia.
  - pose proof (pops_le p V n x (proj1 (HV n))). unfold bonus in L4. destruct (h_children h (last (c :: cs) n)) eqn:Ed; [|lia]. unfold pops at 2. rewrite (HL n (last (c :: cs) n)); [rewrite occ_nil; lia|rewrite Ec; discriminate|now rewrite Ec|exact Ed].
Qed.
Lemma start_total phi : full (start_state phi) /\ forall x, storage x -> 1 <= len (start_state phi) x.
Proof. split; [split; unfold start_state; cbn [s_counter s_stack]; unfold dkeys; rewrite map_map; cbn [fst]; apply map_id|].
  intros x X. unfold len, start_state. cbn [s_stack]. assert (I : In x (zrange 0 storage_count)) by (apply in_zrange; exact X). revert I. generalize (zrange 0 storage_count). induction l as [|y l IH]; intros I; [destruct I|]. cbn [map dget]. destruct (Z.eqb_spec x y) as [|Ny]; [cbn; lia|]. destruct I as [Ey|I]; [congruence|auto]. Qed.
(** The form is computed when the dominator tree is, and no block at the end of a list of
    dominated blocks that dominates nothing itself has a phi function. *)
Lemma ssa_total p g root h tree df gl phi : constructed g -> In root (g_nodes g) -> build_dominator_tree g root = Ok (h, tree) -> build_dominance_frontier g h = Ok df -> place_phi_nodes p g df = Ok (gl, phi) ->
  (forall i, Forall storage (p_reads p i) /\ Forall storage (p_writes p i)) -> (forall n c, h_children h n <> [] -> c = last (h_children h n) n -> h_children h c = [] -> placed phi c = []) ->
  exists st vg, build_ssa p g root = Ok (st, vg).
Proof.
  intros Cg Nr E1 E2 E3 HI HL. pose proof (ssa_fuel p g root Cg Nr) as Nf. unfold build_ssa in *. rewrite E1 in *. cbn [bind] in *. rewrite E2 in *. cbn [bind] in *. rewrite E3 in *. cbn [bind] in *.
  destruct (place_ok p g df gl phi E3) as (_ & Gl & Fr & Q). destruct (start_total phi) as [F L]. destruct (start_good phi) as (G & _ & _).
  assert (HV : forall b, NoDup (placed phi b) /\ Forall storage (placed phi b)).
  { intros b. split; [now apply fresh_placed|]. apply Forall_forall. intros x I. unfold placed in I. apply in_map_iff in I as ([[y k] a] & <- & I). cbn [fst] in *. destruct (proj1 (Q b (y, k))) as (_ & Gy & _); [apply in_map_iff; exists ((y, k), a); auto|].
    cbn [fst] in Gy. destruct Gy as (n & _ & i1 & i & i2 & _ & R & _). destruct (HI i) as [Fi _]. rewrite Forall_forall in Fi. exact (Fi y R). }
  pose proof (node_total p h (placed phi) HV HI HL (length (g_nodes g)) root (start_state phi) F G ltac:(reflexivity) L) as H. unfold rename_vars in *. fold (start_state phi) in *.
  destruct (rename_node (length (g_nodes g)) p h (start_state phi) root) as [s|e]; cbn [safe bind] in *; [eauto|]. subst e. contradiction.
Qed.
