(** C48-C50: the forward constraint solution builders. *)
From Verif Require Import ListLemmas BitsModel BitsSpec BitsProofs QueueModel QueueSpec QueueProofs FlipModel FlipProofs MetaModel MetaSpec MetaProofs MetaProps BuilderModel BuilderSpec BuilderProofs ConstraintProps.
From Coq Require Import ZifyBool ZifyNat Permutation Sorted.

(** ** Counts *)
Definition tallies (d : dict Z) (g : Z -> Z) : Prop := forall k, match dget d k with Some n => n = g k | None => g k = 0 end.
Lemma dec_tallies l : forall d g, (forall k, 0 <= g k) -> tallies d (fun k => g k + Z.of_nat (count_occ Z.eq_dec l k)) -> tallies (fold_left dec_key l d) g.
Proof. induction l as [|x l IH]; intros d g P T; cbn [fold_left].
  - intros k. specialize (T k). cbn [count_occ] in T. destruct (dget d k); lia.
  - apply IH; [exact P|]. intros k. pose proof (T k) as Tk. cbn [count_occ] in Tk. unfold dec_key. destruct (Z.eq_dec x k) as [->|N].
    + destruct (dget d k) as [n|] eqn:E; [rewrite dget_dset_same; lia|]. specialize (P k). lia.
    + destruct (dget d x); [rewrite dget_dset_other by congruence|]; exact Tk. Qed.

(** The original instructions by address. *)
Lemma x_to_dict_get original : NoDup (map x_addr original) -> forall o, In o original -> dget (x_to_dict original) (x_addr o) = Some [o].
Proof. intros N. unfold x_to_dict. assert (G : forall l d, NoDup (map x_addr l) -> forall o, In o l -> dget (fold_left (fun d i => dset d (x_addr i) [i]) l d) (x_addr o) = Some [o]); [|exact (G original [] N)].
  induction l as [|i l IH]; intros d Nd o I; [destruct I|]. cbn [fold_left]. inversion Nd as [|? ? N1 N2]; subst. destruct I as [<-|I]; [|apply IH; assumption].
  assert (F : forall l d, ~ In (x_addr i) (map x_addr l) -> dget (fold_left (fun d i => dset d (x_addr i) [i]) l d) (x_addr i) = dget d (x_addr i)).
  { clear. induction l as [|j l IH]; intros d H; [reflexivity|]. cbn [fold_left]. rewrite IH by (intro; apply H; right; assumption). apply dget_dset_other. intro E. apply H. left. symmetry. exact E. }
  rewrite F by exact N1. apply dget_dset_same. Qed.

Definition fields_at (original : list xinst) (f : xinst -> list Z) (a : Z) : list Z :=
  match dget (x_to_dict original) a with Some (o :: _) => if x_ignore o then [] else f o | _ => [] end.
Definition todo original f addresses k := Z.of_nat (count_occ Z.eq_dec (flat_map (fields_at original f) addresses) k).
Definition counts_for original (m : counts) (addresses : list Z) : Prop :=
  tallies (n_instr m) (todo original (fun o => [x_op o]) addresses) /\ tallies (n_cond m) (todo original (fun o => [x_cond o]) addresses) /\ tallies (n_stor m) (todo original x_stores addresses).
Lemma todo_perm original f l l' k : Permutation l l' -> todo original f l k = todo original f l' k.
Proof. intros P. unfold todo. f_equal. apply perm_count, Permutation_flat_map, P. Qed.
Lemma counts_perm original m l l' : Permutation l l' -> counts_for original m l -> counts_for original m l'.
Proof. intros P (A & B & C). repeat split; intros k; [specialize (A k)|specialize (B k)|specialize (C k)]; erewrite <- todo_perm by exact P; assumption. Qed.
Lemma todo_in original f l k o : NoDup (map x_addr original) -> In o original -> x_ignore o = false -> In (x_addr o) l -> In k (f o) -> 0 < todo original f l k.
Proof. intros N Io Ig Il Ik. unfold todo. assert (H : In k (flat_map (fields_at original f) l)). { apply in_flat_map. exists (x_addr o). split; [exact Il|]. unfold fields_at. rewrite (x_to_dict_get original N o Io), Ig. exact Ik. } apply (count_occ_In Z.eq_dec) in H. lia. Qed.
Lemma counts_initial program original : candidates_for program original -> counts_for original (counts_of original) (dkeys program).
Proof. intros (N1 & N2 & K & _). 
  assert (P : Permutation (dkeys program) (map x_addr original)) by (apply NoDup_Permutation; [exact N2|exact N1|exact K]).
  assert (E : forall f k, todo original f (dkeys program) k = Z.of_nat (count_occ Z.eq_dec (flat_map (fun o => if x_ignore o then [] else f o) original) k)).
  { intros f k. rewrite (todo_perm _ _ _ _ _ P). unfold todo. f_equal. f_equal. assert (G : forall l, incl l original -> flat_map (fields_at original f) (map x_addr l) = flat_map (fun o => if x_ignore o then [] else f o) l); [|apply G, incl_refl].
    induction l as [|o l IH]; intros I; [reflexivity|]. cbn [map flat_map]. rewrite IH by (intros x Hx; apply I; right; exact Hx). f_equal. unfold fields_at. rewrite (x_to_dict_get original N1 o) by (apply I; left; reflexivity). reflexivity. }
  split; [|split]; intros k; rewrite E; destruct (required_counts original k) as (R1 & R2 & R3); unfold required in *; [destruct (dget (n_instr (counts_of original)) k)|destruct (dget (n_cond (counts_of original)) k)|destruct (dget (n_stor (counts_of original)) k)]; lia. Qed.

(** ** Removal *)
Lemma prune_sub m pa : incl (prune m pa) pa.
Proof. induction pa as [|c pa IH]; [intros x []|]. cbn [prune]. destruct pa as [|d pa]; [apply incl_refl|]. destruct (complies m c).
  - intros x [<-|H]; [left; reflexivity|right; apply IH, H].
  - intros x H. right. apply IH, H. Qed.
Lemma prune_keeps m pa c : In c pa -> complies m c = true -> In c (prune m pa).
Proof. induction pa as [|d pa IH]; intros I C; [exact I|]. cbn [prune]. destruct pa as [|e pa]; [exact I|]. destruct I as [->|I]; [rewrite C; left; reflexivity|]. destruct (complies m d); [right|]; apply IH; assumption. Qed.
Lemma prune_nonempty m pa : pa <> [] -> prune m pa <> [].
Proof. induction pa as [|d pa IH]; intros H; [contradiction|]. cbn [prune]. destruct pa as [|e pa]; [discriminate|]. destruct (complies m d); [discriminate|]. apply IH. discriminate. Qed.
Lemma prune_length m pa : (length (prune m pa) <= length pa)%nat.
Proof. induction pa as [|c pa IH]; [cbn; lia|]. cbn [prune]. destruct pa as [|d pa]; [cbn; lia|]. destruct (complies m c); cbn [length] in *; lia. Qed.

Lemma removal m rest : forall p, NoDup rest -> (forall a, In a rest -> exists pa, dget p a = Some pa) ->
  exists p', foldM (fun p a => let* pa := dget_r p a in Ok (dset p a (prune m pa))) rest p = Ok p' /\ dkeys p' = dkeys p /\
    forall a, dget p' a = if zmem a rest then option_map (prune m) (dget p a) else dget p a.
Proof. induction rest as [|a rest IH]; intros p N H; cbn [foldM]; [exists p; split; [reflexivity|]; split; [reflexivity|intros; reflexivity]|].
  inversion N as [|? ? N1 N2]; subst. destruct (H a ltac:(left; reflexivity)) as (pa & G). unfold dget_r at 1. rewrite G. cbn [bind].
  destruct (IH (dset p a (prune m pa)) N2) as (p' & E & K & D). { intros b Ib. rewrite dget_dset. destruct (b =? a); [eauto|]. apply H. right. exact Ib. }
  exists p'. split; [exact E|]. split; [rewrite K, dkeys_dset; unfold dmem; rewrite G; reflexivity|]. intros b. rewrite D. unfold zmem in *. cbn [existsb]. rewrite dget_dset. destruct (Z.eqb_spec b a) as [->|Nb].
  - cbn [orb]. destruct (existsb (Z.eqb a) rest) eqn:X; [|rewrite G; reflexivity]. exfalso. apply N1. apply zmem_in. exact X.
  - reflexivity. Qed.

(** ** Where the original is *)
Lemma find_index_spec pa text : match find_index pa text with
  | Ok i => exists c, nth_error pa i = Some c /\ x_text c = text /\ forall j d, (j < i)%nat -> nth_error pa j = Some d -> x_text d <> text
  | Err e => e = RuntimeError /\ forall c, In c pa -> x_text c <> text end.
Proof. induction pa as [|c pa IH]; cbn [find_index]; [split; [reflexivity|intros ? []]|]. destruct (x_text c =? text) eqn:E.
  - exists c. split; [reflexivity|]. split; [lia|]. intros; lia.
  - destruct (find_index pa text) as [i|e]; cbn [rmap].
    + destruct IH as (d & H1 & H2 & H3). exists d. split; [exact H1|]. split; [exact H2|]. intros [|j] x L X; [cbn in X; injection X as <-; lia|]. apply (H3 j x); [lia|exact X].
    + destruct IH as [-> IH]. split; [reflexivity|]. intros x [<-|I]; [lia|apply IH, I]. Qed.

(** ** The loop with forward updates *)
Record loop_inv (program : xprogram) (original : list xinst) (addresses : list Z) (p : xprogram) (m : counts) : Prop := {
  li_nodup : NoDup addresses;
  li_known : forall a, In a addresses -> In a (map x_addr original);
  li_keys : dkeys p = dkeys program;
  li_sub : forall a pa, dget p a = Some pa -> exists pa0, dget program a = Some pa0 /\ incl pa pa0 /\ (length pa <= length pa0)%nat;
  li_offers : offers p original;
  li_alike : forall o pa0 c, In o original -> x_ignore o = false -> dget program (x_addr o) = Some pa0 -> In c pa0 -> x_text c = x_text o -> exists pa, dget p (x_addr o) = Some pa /\ In c pa;
  li_counts : counts_for original m addresses }.
Lemma li_get program original addresses p m a : candidates_for program original -> loop_inv program original addresses p m -> In a addresses -> exists pa, dget p a = Some pa.
Proof. intros (_ & _ & K & _) L I. apply dget_some_in. rewrite (li_keys _ _ _ _ _ L). apply K. apply (li_known _ _ _ _ _ L), I. Qed.
(** One turn: what is chosen agrees with the original. *)
Lemma chosen_alike program original addresses p m a o pa : candidates_for program original -> loop_inv program original addresses p m ->
  In o original -> x_addr o = a -> x_ignore o = false -> dget p a = Some pa ->
  pa <> [] /\ ((1 <? length pa)%nat = false -> exists c, pa = [c] /\ x_text c = x_text o /\ same_fields c o) /\
  exists i c, find_index pa (x_text o) = Ok i /\ nth_error pa i = Some c /\ x_text c = x_text o /\ same_fields c o.
Proof. intros (N1 & N2 & K & Al & _) L Io Ea Ig G. destruct (li_offers _ _ _ _ _ L o Io Ig) as (pa' & c & G' & Ic & T). assert (pa' = pa) as -> by congruence. destruct (li_sub _ _ _ _ _ L a pa G) as (pa0 & G0 & Sub & _).
  assert (Same : forall c, In c pa -> x_text c = x_text o -> same_fields c o). { intros x Ix Tx. apply (Al o pa0 x Io); [rewrite Ea; exact G0|apply Sub, Ix|exact Tx]. }
  split; [intros ->; destruct Ic|]. split.
  - intros El. destruct pa as [|x [|y pa]]; [destruct Ic| |cbn in El; discriminate]. destruct Ic as [->|[]]. exists c. split; [reflexivity|]. split; [exact T|]. apply Same; [left; reflexivity|exact T].
  - pose proof (find_index_spec pa (x_text o)) as F. destruct (find_index pa (x_text o)) as [i|e].
    + destruct F as (d & F1 & F2 & _). exists i, d. split; [reflexivity|]. split; [exact F1|]. split; [exact F2|]. apply Same; [eapply nth_error_In; exact F1|exact F2].
    + exfalso. destruct F as [_ F]. exact (F c Ic T). Qed.
Lemma turn_inv program original a rest p m c o : candidates_for program original -> loop_inv program original (a :: rest) p m ->
  In o original -> x_addr o = a -> x_ignore o = false -> same_fields c o ->
  exists p', remove_invalid (update_counts m c) (a :: rest) p = Ok p' /\ loop_inv program original rest p' (update_counts m c) /\ dget p' a = dget p a.
Proof. intros Cf L Io Ea Ig Sf. destruct Sf as (S1 & S2 & S3 & S4). pose proof Cf as (N1 & N2 & K & Al & Rg). pose proof (li_nodup _ _ _ _ _ L) as Nd. apply NoDup_cons_iff in Nd. destruct Nd as [Na Nr].
  set (m' := update_counts m c). 
  assert (Ct : counts_for original m' rest).
  { unfold m', update_counts. rewrite S1, Ig, S2, S3, S4. destruct (li_counts _ _ _ _ _ L) as (A & B & C). 
    assert (Split : forall f k, todo original f (a :: rest) k = todo original f rest k + Z.of_nat (count_occ Z.eq_dec (f o) k)).
    { intros f k. unfold todo. cbn [flat_map]. rewrite count_occ_app. unfold fields_at at 1. rewrite <- Ea, (x_to_dict_get original N1 o Io), Ig. lia. }
    split; [|split]; cbn [n_instr n_cond n_stor].
    - apply (dec_tallies [x_op o]); [intros; unfold todo; lia|]. intros k. specialize (A k). rewrite Split in A. exact A.
    - apply (dec_tallies [x_cond o]); [intros; unfold todo; lia|]. intros k. specialize (B k). rewrite Split in B. exact B.
    - apply (dec_tallies (x_stores o)); [intros; unfold todo; lia|]. intros k. specialize (C k). rewrite Split in C. exact C. }
  assert (Stay : forall x pa d, In x original -> x_ignore x = false -> zmem (x_addr x) rest = true -> dget p (x_addr x) = Some pa -> In d pa -> x_text d = x_text x -> In d (prune m' pa)).
  { intros x pa d Ix Igx Z G Id T. apply zmem_in in Z. apply prune_keeps; [exact Id|].
  destruct (li_sub _ _ _ _ _ L _ _ G) as (pa0 & G0 & Sub & _). destruct (Al x pa0 d Ix G0 (Sub d Id) T) as (D1 & D2 & D3 & D4). destruct Ct as (C1 & C2 & C3). unfold complies. rewrite D1, Igx, D2, D3. cbn [negb andb].
    assert (Av : forall dd f k, tallies dd (todo original f rest) -> In k (f x) -> available dd k = true). { intros dd f k Tk Ik. specialize (Tk k). pose proof (todo_in original f rest k x N1 Ix Igx Z Ik). unfold available. destruct (dget dd k); lia. }
    rewrite (Av _ (fun o => [x_op o]) _ C1) by (left; reflexivity). rewrite (Av _ (fun o => [x_cond o]) _ C2) by (left; reflexivity). cbn [andb]. apply forallb_forall. intros r Hr. apply (Av _ x_stores r C3). rewrite <- D4. apply (Rg (x_addr x) pa0 d G0 (Sub d Id)), Hr. }
  destruct (removal m' rest p Nr) as (p' & E & Kp & D). { intros b Ib. eapply li_get; [exact Cf|exact L|right; exact Ib]. }
  exists p'. split; [exact E|]. split.
  - constructor.
    + exact Nr.
    + intros b Ib. apply (li_known _ _ _ _ _ L). right. exact Ib.
    + rewrite Kp. exact (li_keys _ _ _ _ _ L).
    + intros b pb Gb. rewrite D in Gb. destruct (zmem b rest); [|apply (li_sub _ _ _ _ _ L b pb Gb)]. destruct (dget p b) as [pa|] eqn:Gp; [|discriminate]. cbn [option_map] in Gb. assert (pb = prune m' pa) as -> by congruence. destruct (li_sub _ _ _ _ _ L b pa Gp) as (pa0 & G0 & Sub & Ln). exists pa0. split; [exact G0|]. split; [intros y Hy; apply Sub, (prune_sub m'), Hy|]. pose proof (prune_length m' pa). lia.
    + intros x Ix Igx. destruct (li_offers _ _ _ _ _ L x Ix Igx) as (pa & d & G & Id & T). rewrite D. destruct (zmem (x_addr x) rest) eqn:Z; [|exists pa, d; auto]. rewrite G. cbn [option_map]. exists (prune m' pa), d. split; [reflexivity|]. split; [|exact T]. apply (Stay x pa d); assumption.
    + intros x pa0 d Ix Igx G0 I0 T. destruct (li_alike _ _ _ _ _ L x pa0 d Ix Igx G0 I0 T) as (pa & G & Id). rewrite D. destruct (zmem (x_addr x) rest) eqn:Z; [|exists pa; auto]. rewrite G. cbn [option_map]. exists (prune m' pa). split; [reflexivity|]. apply (Stay x pa d); assumption.
    + exact Ct.
  - rewrite D. destruct (zmem a rest) eqn:Z; [|reflexivity]. exfalso. apply zmem_in in Z. contradiction. Qed.
Lemma resort_inv program original l l' p m : Permutation l l' -> loop_inv program original l p m -> loop_inv program original l' p m.
Proof. intros P []. constructor; try assumption; [eapply Permutation_NoDup; eassumption|intros a I; apply li_known0; eapply Permutation_in; [apply Permutation_sym, P|exact I]|eapply counts_perm; eassumption]. Qed.
Lemma skip_inv program original a rest p m o : candidates_for program original -> loop_inv program original (a :: rest) p m -> In o original -> x_addr o = a -> x_ignore o = true -> loop_inv program original rest p m.
Proof. intros (N1 & _) [Nd Kn Ks Sb Of Al (A & B & C)] Io Ea Ig. inversion Nd; subst. constructor; try assumption; [intros; apply Kn; right; assumption|].
  assert (E : forall f k, todo original f (x_addr o :: rest) k = todo original f rest k). { intros f k. unfold todo. cbn [flat_map]. unfold fields_at at 1. rewrite (x_to_dict_get original N1 o Io), Ig. reflexivity. }
  repeat split; intros k; [specialize (A k)|specialize (B k)|specialize (C k)]; rewrite E in *; assumption. Qed.

Lemma forward_loop {St} (on : St -> nat -> list xinst -> result St) (J : St -> Prop) program original :
  (forall s i pa, J s -> exists s', on s i pa = Ok s' /\ J s') -> candidates_for program original ->
  forall fuel addresses p m s, (length addresses <= fuel)%nat -> loop_inv program original addresses p m -> J s ->
  exists p' m' s', build_loop on true (x_to_dict original) fuel addresses p m s = Ok (p', m', s') /\ loop_inv program original [] p' m' /\ J s'.
Proof. intros Hon Cf. induction fuel as [|fuel IH]; intros addresses p m s Lf L Js; (destruct addresses as [|a rest]; cbn [build_loop]; [exists p, m, s; auto|]); [cbn in Lf; lia|].
  destruct (li_get _ _ _ _ _ a Cf L ltac:(left; reflexivity)) as (pa & G). unfold dget_r at 1. rewrite G. cbn [bind]. pose proof (li_known _ _ _ _ _ L a ltac:(left; reflexivity)) as Ia. apply in_map_iff in Ia. destruct Ia as (o & Ea & Io).
  assert (Go : dget (x_to_dict original) a = Some [o]) by (rewrite <- Ea; apply x_to_dict_get; [exact (proj1 Cf)|exact Io]). unfold dget_r at 1. rewrite Go. clear Go. cbn [bind nth_r nth_error]. destruct (x_ignore o) eqn:Ig.
  - rewrite orb_true_r. apply IH; [cbn in Lf; lia|eapply skip_inv; eassumption|exact Js].
  - rewrite orb_false_r. destruct (chosen_alike _ _ _ _ _ a o pa Cf L Io Ea Ig G) as (Ne & One & i & c & Fi & Ni & T & Sf). destruct (length pa <=? 0)%nat eqn:Z; [destruct pa; [contradiction|cbn in Z; lia]|]. 
    assert (Go : forall c' s', J s' -> same_fields c' o -> exists p' m' s'', (let* (p0, m0) := (let* p1 := remove_invalid (update_counts m c') (a :: rest) p in Ok (p1, update_counts m c')) in build_loop on true (x_to_dict original) fuel (sort_addresses p0 rest) p0 m0 s') = Ok (p', m', s'') /\ loop_inv program original [] p' m' /\ J s'').
    { intros c' s' Js' Sf'. destruct (turn_inv _ _ _ _ _ _ c' o Cf L Io Ea Ig Sf') as (p' & E & L' & _). rewrite E. cbn [bind]. apply IH; [|eapply resort_inv; [apply Permutation_sym, sort_by_perm|exact L']|exact Js']. unfold sort_addresses. rewrite (Permutation_length (sort_by_perm _ rest)). cbn in Lf. lia. }
    destruct (1 <? length pa)%nat eqn:El.
    + rewrite Fi. cbn [bind]. destruct (Hon s i pa Js) as (s' & Es & Js'). rewrite Es. cbn [bind]. unfold nth_r. rewrite Ni. cbn [bind]. apply Go; assumption.
    + cbn [bind]. destruct (One eq_refl) as (c1 & -> & T1 & Sf1). cbn [nth_r nth_error bind]. apply Go; assumption. Qed.
Lemma initial_inv program original : candidates_for program original -> offers program original -> loop_inv program original (sort_addresses program (dkeys program)) program (counts_of original).
Proof. intros Cf Of. eapply resort_inv; [apply Permutation_sym, sort_by_perm|]. pose proof Cf as (N1 & N2 & K & _). constructor; [exact N2|intros a; apply K|reflexivity|intros a pa G; exists pa; split; [exact G|split; [apply incl_refl|lia]]|exact Of|intros o pa0 c _ _ G I _; exists pa0; auto|]. eapply counts_initial, Cf. Qed.

(** C48. *)
Theorem C48_never_lost : forall program original, candidates_for program original -> offers program original ->
  exists p m solution, enumerate program original = Ok (p, m, solution) /\
    dkeys p = dkeys program /\ (forall a pa, dget p a = Some pa -> exists pa0, dget program a = Some pa0 /\ incl pa pa0 /\ (length pa <= length pa0)%nat) /\
    offers p original /\
    forall k n, dget (n_instr m) k = Some n \/ dget (n_cond m) k = Some n \/ dget (n_stor m) k = Some n -> n = 0.
Proof. intros program original Cf Of. destruct (forward_loop (fun s index _ => Ok (s * (Z.of_nat index + 1))) (fun _ => True) program original ltac:(eauto) Cf (length program) (sort_addresses program (dkeys program)) program (counts_of original) 1) as (p & m & s & E & L & _).
  - unfold sort_addresses. rewrite (Permutation_length (sort_by_perm _ _)). unfold dkeys. rewrite map_length. lia.
  - apply initial_inv; assumption.
  - exact I.
  - exists p, m, s. split; [exact E|]. split; [exact (li_keys _ _ _ _ _ L)|]. split; [intros a pa G; destruct (li_sub _ _ _ _ _ L a pa G) as (pa0 & A & B & C); eauto|]. split; [exact (li_offers _ _ _ _ _ L)|]. destruct (li_counts _ _ _ _ _ L) as (A & B & C).
    intros k n [H|[H|H]]; [specialize (A k)|specialize (B k)|specialize (C k)]; rewrite H in *; assumption. Qed.
Print Assumptions C48_never_lost.
(** Nothing printed like the original is lost, so neither is its encoding. *)
Theorem C48_alike_kept : forall program original p m solution, candidates_for program original -> offers program original ->
  enumerate program original = Ok (p, m, solution) ->
  forall o pa0 c, In o original -> x_ignore o = false -> dget program (x_addr o) = Some pa0 -> In c pa0 -> x_text c = x_text o ->
    exists pa, dget p (x_addr o) = Some pa /\ In c pa.
Proof. intros program original p0 m0 s0 Cf Of E0. destruct (forward_loop (fun s index _ => Ok (s * (Z.of_nat index + 1))) (fun _ => True) program original ltac:(eauto) Cf (length program) (sort_addresses program (dkeys program)) program (counts_of original) 1) as (p & m & s & E & L & _).
  - unfold sort_addresses. rewrite (Permutation_length (sort_by_perm _ _)). unfold dkeys. rewrite map_length. lia.
  - apply initial_inv; assumption.
  - exact I.
  - assert (p0 = p) as ->. { unfold enumerate, build in E0. rewrite E in E0. congruence. } exact (li_alike _ _ _ _ _ L). Qed.
Print Assumptions C48_alike_kept.
Definition o1 := at_address 0 1 1 false [1; 2].
Definition o2 := at_address 4 2 1 false [2].
Definition o3 := at_address 8 3 9 true [9].
Definition demo_program : xprogram := [(0, [at_address 0 7 3 false [1]; at_address 0 10 1 false [1; 1]; o1]); (4, [o2; at_address 4 8 1 false [1]]); (8, [at_address 8 9 1 false [1]])].
Example C48_example : match enumerate demo_program [o1; o2; o3] with
  | Ok (p, m, s) => (map (fun kv => map x_id (snd kv)) p, s, dvalues (n_instr m), dvalues (n_stor m)) | Err _ => ([], 0, [], []) end = ([[10; 1]; [2; 8]; [9]], 2, [0], [0; 0]).
Proof. vm_compute. reflexivity. Qed.

(** C49.  Refuted: only the product of the indices is kept. *)
Definition sel (a id : Z) := at_address a id 1 false [1].
Theorem C49_injective_refuted : exists program original original' p m p' m' solution,
  candidates_for program original /\ offers program original /\ candidates_for program original' /\ offers program original' /\
  enumerate program original = Ok (p, m, solution) /\ enumerate program original' = Ok (p', m', solution) /\ map x_text original <> map x_text original'.
Proof. exists [(0, [sel 0 1; sel 0 2]); (4, [sel 4 3; sel 4 4])], [sel 0 1; sel 4 4], [sel 0 2; sel 4 3]. do 4 eexists. exists 2.
  assert (W : forall x y, candidates_for [(0, [sel 0 1; sel 0 2]); (4, [sel 4 3; sel 4 4])] [sel 0 x; sel 4 y]).
  { intros x y. split; [repeat constructor; cbn; [intros [?|[]]; discriminate|intros []]|]. split; [repeat constructor; cbn; [intros [?|[]]; discriminate|intros []]|]. split; [intros a; cbn; tauto|]. split.
    - intros o pa c [<-|[<-|[]]] G Ic _; cbn in G; injection G as <-; destruct Ic as [<-|[<-|[]]]; repeat split.
    - intros a pa c G Ic. cbn [dget] in G. destruct (a =? 0); [|destruct (a =? 4); [|discriminate]]; injection G as <-; destruct Ic as [<-|[<-|[]]]; apply incl_refl. }
  split; [apply W|]. split; [intros o [<-|[<-|[]]] _; eexists; eexists; (split; [reflexivity|]); (split; [|reflexivity]); cbn; auto|]. split; [apply W|]. split; [intros o [<-|[<-|[]]] _; eexists; eexists; (split; [reflexivity|]); (split; [|reflexivity]); cbn; auto|].
  split; [vm_compute; reflexivity|]. split; [vm_compute; reflexivity|]. discriminate. Qed.
Print Assumptions C49_injective_refuted.
(** What holds: the value is the product of the indices plus one ... *)
Definition recorded (program : xprogram) (original : list xinst) :=
  build (fun s index pa => Ok (s ++ [(index, length pa)])) true [] program original.
Definition product (l : list (nat * nat)) : Z := fold_right (fun x n => (Z.of_nat (fst x) + 1) * n) 1 l.
Lemma loop_map {S1 S2} (on1 : S1 -> nat -> list xinst -> result S1) (on2 : S2 -> nat -> list xinst -> result S2) (F : S1 -> S2) fw od :
  (forall s i pa, on2 (F s) i pa = rmap F (on1 s i pa)) -> forall fuel l p m s,
  build_loop on2 fw od fuel l p m (F s) = rmap (fun r => (fst r, F (snd r))) (build_loop on1 fw od fuel l p m s).
Proof. intros H. induction fuel as [|fuel IH]; intros l p m s; (destruct l as [|a rest]; cbn [build_loop]; [reflexivity|]); [reflexivity|].
  destruct (dget_r p a) as [pa|]; [|reflexivity]. cbn [bind]. destruct (dget_r od a) as [os|]; [|reflexivity]. cbn [bind]. destruct (nth_r os 0) as [o|]; [|reflexivity]. cbn [bind]. destruct ((length pa <=? 0)%nat || x_ignore o); [apply IH|].
  destruct (1 <? length pa)%nat.
  - destruct (find_index pa (x_text o)) as [i|]; [|reflexivity]. cbn [bind]. rewrite H. destruct (on1 s i pa) as [s'|]; [|reflexivity]. cbn [rmap bind]. destruct fw; [|cbn [bind]; apply IH]. destruct (nth_r pa i) as [c|]; [|reflexivity]. cbn [bind]. destruct (remove_invalid _ _ _); [|reflexivity]. cbn [bind]. apply IH.
  - cbn [bind]. destruct fw; [|cbn [bind]; apply IH]. destruct (nth_r pa 0) as [c|]; [|reflexivity]. cbn [bind]. destruct (remove_invalid _ _ _); [|reflexivity]. cbn [bind]. apply IH. Qed.
Lemma product_app a b : product (a ++ b) = product a * product b.
Proof. unfold product. induction a as [|x a IH]; [cbn [app fold_right]; lia|]. cbn [app fold_right]. rewrite IH. ring. Qed.
Lemma find_index_lt pa text i : find_index pa text = Ok i -> (i < length pa)%nat.
Proof. intros E. pose proof (find_index_spec pa text) as H. rewrite E in H. destruct H as (c & H & _). apply nth_error_Some. congruence. Qed.
(** Recorded indices are in range and only appended. *)
Lemma record_extends fw od fuel : forall l p m (s : list (nat * nat)) p' m' s',
  build_loop (fun s index pa => Ok (s ++ [(index, length pa)])) fw od fuel l p m s = Ok (p', m', s') -> exists ext, s' = s ++ ext /\ Forall (fun x => (fst x < snd x)%nat) ext.
Proof. induction fuel as [|fuel IH]; intros l p m s p' m' s' H; (destruct l as [|a rest]; cbn [build_loop] in H; [exists []; split; [rewrite app_nil_r; congruence|constructor]|]); [discriminate|].
  destruct (dget_r p a) as [pa|]; [|discriminate]. cbn [bind] in H. destruct (dget_r od a) as [os|]; [|discriminate]. cbn [bind] in H. destruct (nth_r os 0) as [o|]; [|discriminate]. cbn [bind] in H. destruct ((length pa <=? 0)%nat || x_ignore o); [eapply IH; exact H|].
  destruct (1 <? length pa)%nat.
  - destruct (find_index pa (x_text o)) as [i|] eqn:Ei; [|discriminate]. cbn [bind] in H. 
    assert (G : exists p1 m1, build_loop (fun s index pa => Ok (s ++ [(index, length pa)])) fw od fuel (sort_addresses p1 rest) p1 m1 (s ++ [(i, length pa)]) = Ok (p', m', s')).
    { destruct fw; [|cbn [bind] in H; eauto]. destruct (nth_r pa i) as [c|]; [|discriminate]. cbn [bind] in H. destruct (remove_invalid _ _ _); [|discriminate]. cbn [bind] in H. eauto. }
    destruct G as (p1 & m1 & G). destruct (IH _ _ _ _ _ _ _ G) as (ext & -> & F). exists ((i, length pa) :: ext). split; [rewrite <- app_assoc; reflexivity|]. constructor; [cbn; eapply find_index_lt; exact Ei|exact F].
  - cbn [bind] in H. destruct fw; [|cbn [bind] in H; eapply IH; exact H]. destruct (nth_r pa 0) as [c|]; [|discriminate]. cbn [bind] in H. destruct (remove_invalid _ _ _); [|discriminate]. cbn [bind] in H. eapply IH; exact H. Qed.
Lemma enumerate_recorded program original p m t : recorded program original = Ok (p, m, t) -> enumerate program original = Ok (p, m, product t).
Proof. intros H. unfold enumerate, build. change 1 with (product []). rewrite (loop_map (fun s index pa => Ok (s ++ [(index, length pa)]))) with (F := product).
  - unfold recorded, build in H. rewrite H. reflexivity.
  - intros s i pa. cbn [rmap]. rewrite product_app. f_equal. replace (product [(i, length pa)]) with (Z.of_nat i + 1) by (unfold product; cbn [fold_right fst]; ring). reflexivity. Qed.
(** ... and with the same metadata the indices themselves determine the program. *)
Lemma lockstep program original original' : candidates_for program original -> candidates_for program original' ->
  (forall o o', In o original -> In o' original' -> x_addr o = x_addr o' -> x_ignore o = x_ignore o') ->
  forall fuel l p m s p1 m1 p2 m2 t,
  loop_inv program original l p m -> loop_inv program original' l p m ->
  build_loop (fun s index pa => Ok (s ++ [(index, length pa)])) true (x_to_dict original) fuel l p m s = Ok (p1, m1, t) ->
  build_loop (fun s index pa => Ok (s ++ [(index, length pa)])) true (x_to_dict original') fuel l p m s = Ok (p2, m2, t) ->
  forall o o', In o original -> In o' original' -> x_addr o = x_addr o' -> In (x_addr o) l -> x_ignore o = false -> x_text o = x_text o'.
Proof. intros Cf Cf' Hi. induction fuel as [|fuel IH]; intros l p m s p1 m1 p2 m2 t L L' E E'; (destruct l as [|a rest]; cbn [build_loop] in E, E'; [intros ? ? ? ? ? []|]); [discriminate|].
  destruct (li_get _ _ _ _ _ a Cf L ltac:(left; reflexivity)) as (pa & G). assert (G1 : dget_r p a = Ok pa) by (unfold dget_r; rewrite G; reflexivity). rewrite G1 in E, E'. cbn [bind] in E, E'.
  pose proof (li_known _ _ _ _ _ L a ltac:(left; reflexivity)) as Ia. apply in_map_iff in Ia. destruct Ia as (o & Ea & Io). pose proof (li_known _ _ _ _ _ L' a ltac:(left; reflexivity)) as Ia'. apply in_map_iff in Ia'. destruct Ia' as (o' & Ea' & Io').
  assert (Go : dget (x_to_dict original) a = Some [o]) by (rewrite <- Ea; apply x_to_dict_get; [exact (proj1 Cf)|exact Io]). assert (Go' : dget (x_to_dict original') a = Some [o']) by (rewrite <- Ea'; apply x_to_dict_get; [exact (proj1 Cf')|exact Io']).
  assert (Go1 : dget_r (x_to_dict original) a = Ok [o]) by (unfold dget_r; rewrite Go; reflexivity). assert (Go1' : dget_r (x_to_dict original') a = Ok [o']) by (unfold dget_r; rewrite Go'; reflexivity). rewrite Go1 in E. rewrite Go1' in E'. cbn [bind nth_r nth_error] in E, E'. rewrite <- (Hi o o' Io Io' ltac:(congruence)) in E'.
  assert (Uo : forall x, In x original -> x_addr x = a -> x = o). { intros x Ix Ex. pose proof (x_to_dict_get original (proj1 Cf) x Ix) as H. rewrite Ex, Go in H. congruence. }
  assert (Uo' : forall x, In x original' -> x_addr x = a -> x = o'). { intros x Ix Ex. pose proof (x_to_dict_get original' (proj1 Cf') x Ix) as H. rewrite Ex, Go' in H. congruence. }
  destruct (x_ignore o) eqn:Ig.
  - rewrite orb_true_r in E, E'. assert (S1 := skip_inv _ _ _ _ _ _ o Cf L Io Ea Ig). assert (S2 : loop_inv program original' rest p m). { eapply skip_inv; [exact Cf'|exact L'|exact Io'|exact Ea'|]. rewrite <- (Hi o o' Io Io') by congruence. exact Ig. }
    intros x x' Ix Ix' Ex Il Igx. destruct Il as [Il|Il]; [rewrite (Uo x Ix (eq_sym Il)) in Igx; congruence|]. eapply (IH rest p m s); try eassumption.
  - rewrite orb_false_r in E, E'. assert (Ig' : x_ignore o' = false) by (rewrite <- (Hi o o' Io Io') by congruence; exact Ig).
    destruct (chosen_alike _ _ _ _ _ a o pa Cf L Io Ea Ig G) as (Ne & One & i & c & Fi & Ni & T & Sf). destruct (chosen_alike _ _ _ _ _ a o' pa Cf' L' Io' Ea' Ig' G) as (_ & One' & i' & c' & Fi' & Ni' & T' & Sf').
    destruct (length pa <=? 0)%nat eqn:Z; [destruct pa; [contradiction|cbn in Z; lia]|].
    assert (Go2 : forall d s2, same_fields d o -> same_fields d o' -> x_text o = x_text o' ->
      (let* (p0, m0) := (let* p1 := remove_invalid (update_counts m d) (a :: rest) p in Ok (p1, update_counts m d)) in build_loop (fun s index pa => Ok (s ++ [(index, length pa)])) true (x_to_dict original) fuel (sort_addresses p0 rest) p0 m0 s2) = Ok (p1, m1, t) ->
      (let* (p0, m0) := (let* p1 := remove_invalid (update_counts m d) (a :: rest) p in Ok (p1, update_counts m d)) in build_loop (fun s index pa => Ok (s ++ [(index, length pa)])) true (x_to_dict original') fuel (sort_addresses p0 rest) p0 m0 s2) = Ok (p2, m2, t) ->
      forall x x', In x original -> In x' original' -> x_addr x = x_addr x' -> In (x_addr x) (a :: rest) -> x_ignore x = false -> x_text x = x_text x').
    { intros d s2 Sd Sd' Tx H H' x x' Ix Ix' Ex Il Igx. destruct Il as [Il|Il]; [rewrite (Uo x Ix (eq_sym Il)), (Uo' x' Ix' ltac:(congruence)); exact Tx|].
      destruct (turn_inv _ _ _ _ _ _ d o Cf L Io Ea Ig Sd) as (q & Eq & Lq & _). destruct (turn_inv _ _ _ _ _ _ d o' Cf' L' Io' Ea' Ig' Sd') as (q' & Eq' & Lq' & _). assert (q' = q) as -> by congruence. rewrite Eq in H, H'. cbn [bind] in H, H'.
      eapply (IH (sort_addresses q rest) q (update_counts m d) s2); try eassumption; try (eapply resort_inv; [apply Permutation_sym, sort_by_perm|eassumption]). eapply Permutation_in; [apply Permutation_sym, sort_by_perm|exact Il]. }
    destruct (1 <? length pa)%nat eqn:El.
    + rewrite Fi in E. rewrite Fi' in E'. cbn [bind] in E, E'. unfold nth_r in E, E'. rewrite Ni in E. rewrite Ni' in E'. cbn [bind] in E, E'.
      assert (i' = i) as ->.
      { destruct (turn_inv _ _ _ _ _ _ c o Cf L Io Ea Ig Sf) as (q & Eq & _). destruct (turn_inv _ _ _ _ _ _ c' o' Cf' L' Io' Ea' Ig' Sf') as (q' & Eq' & _). rewrite Eq in E. rewrite Eq' in E'. cbn [bind] in E, E'. apply record_extends in E, E'. destruct E as (x1 & E & _), E' as (x2 & E' & _). rewrite E in E'. rewrite <- !app_assoc in E'. apply app_inv_head in E'. cbn [app] in E'. congruence. }
      assert (c' = c) as -> by congruence. eapply Go2; [exact Sf|exact Sf'|congruence|exact E|exact E'].
    + cbn [bind] in E, E'. destruct (One eq_refl) as (c1 & -> & T1 & Sf1). destruct (One' eq_refl) as (c2 & Ec & T2 & Sf2). assert (c2 = c1) as -> by congruence. cbn [nth_r nth_error bind] in E, E'. eapply Go2; [exact Sf1|exact Sf2|congruence|exact E|exact E']. Qed.
Theorem C49_injective_partial : forall program original, candidates_for program original -> offers program original ->
  exists p m t, recorded program original = Ok (p, m, t) /\ enumerate program original = Ok (p, m, product t) /\
    Forall (fun x => (fst x < snd x)%nat) t /\ 1 <= product t <= fold_right (fun x n => Z.of_nat (snd x) * n) 1 t /\
    forall original' p' m' t', candidates_for program original' -> offers program original' -> counts_of original' = counts_of original ->
      (forall o o', In o original -> In o' original' -> x_addr o = x_addr o' -> x_ignore o = x_ignore o') ->
      recorded program original' = Ok (p', m', t') -> t' = t ->
      forall o o', In o original -> In o' original' -> x_addr o = x_addr o' -> x_ignore o = false -> x_text o = x_text o'.
Proof. intros program original Cf Of. destruct (forward_loop (fun s index pa => Ok (s ++ [(index, length pa)])) (fun _ => True) program original ltac:(eauto) Cf (length program) (sort_addresses program (dkeys program)) program (counts_of original) []) as (p & m & t & E & L & _).
  - unfold sort_addresses. rewrite (Permutation_length (sort_by_perm _ _)). unfold dkeys. rewrite map_length. lia.
  - apply initial_inv; assumption.
  - exact I.
  - exists p, m, t. split; [exact E|]. split; [apply enumerate_recorded, E|]. pose proof (record_extends _ _ _ _ _ _ _ _ _ _ E) as (ext & Ex & F). cbn [app] in Ex. subst ext. split; [exact F|]. split.
    + clear - F. unfold product. induction F as [|x t Hx F IH]; cbn [fold_right]; [lia|]. nia.
    + intros original' p' m' t' Cf' Of' Ct Hi E' -> o o' Io Io' Ea Ig.
      assert (Kn : In (x_addr o) (sort_addresses program (dkeys program))). { eapply Permutation_in; [apply Permutation_sym, sort_by_perm|]. apply Cf. apply in_map, Io. }
      unfold recorded, build in E'. rewrite Ct in E'. eapply (lockstep program original original' Cf Cf' Hi (length program) (sort_addresses program (dkeys program)) program (counts_of original) []); try eassumption; [apply initial_inv; assumption|]. rewrite <- Ct. apply initial_inv; assumption. Qed.
Print Assumptions C49_injective_partial.
Example C49_example : match recorded demo_program [o1; o2; o3] with Ok (_, _, t) => (t, product t) | Err _ => ([], 0) end = ([(0, 2); (1, 2)]%nat, 2).
Proof. vm_compute. reflexivity. Qed.

(** C50.  Refuted, for two reasons: the number of bits is rounded down ... *)
Theorem C50_decodable_refuted : exists program original original' r,
  build_bits program original = Ok r /\ build_bits program original' = Ok r /\ map x_text original <> map x_text original' /\
  (forall o, In o (original ++ original') -> exists pa, dget program (x_addr o) = Some pa /\ In o pa).
Proof. exists [(0, [sel 0 1; sel 0 2; sel 0 3])], [sel 0 1], [sel 0 3]. eexists. split; [vm_compute; reflexivity|]. split; [vm_compute; reflexivity|]. split; [discriminate|]. intros o [<-|[<-|[]]]; eexists; (split; [reflexivity|]); cbn; auto. Qed.
Print Assumptions C50_decodable_refuted.
(** ... and an index that crosses the end of a word is cut, even when all numbers
    of candidates are powers of two. *)
Definition crossing_program : xprogram := map (fun a => (a, [sel a (2 * a); sel a (2 * a + 1)])) (zrange 0 31) ++ [(31, [sel 31 100; sel 31 101; sel 31 102; sel 31 103])].
Definition crossing_original (last : Z) : list xinst := map (fun a => sel a (2 * a)) (zrange 0 31) ++ [sel 31 last].
Theorem C50_crossing_refuted : exists r, build_bits crossing_program (crossing_original 100) = Ok r /\ build_bits crossing_program (crossing_original 102) = Ok r.
Proof. eexists. split; vm_compute; reflexivity. Qed.
Print Assumptions C50_crossing_refuted.

(** What holds: powers of two, and no index crosses a word. *)
Lemma sort_by_id {A} (key : A -> Z) l : StronglySorted (fun x y => key x <= key y) l -> sort_by key l = l.
Proof. induction 1 as [|a l S IH F]; [reflexivity|]. cbn [sort_by fold_right]. fold (sort_by key l). rewrite IH. destruct l as [|b l]; [reflexivity|]. cbn [insert_by]. inversion F; subst. replace (key a <=? key b) with true by lia. reflexivity. Qed.
(** The addresses visited with more than one candidate, in order: candidates and original. *)
Definition visited (program : xprogram) (original : list xinst) (l : list Z) : list (list xinst * xinst) :=
  flat_map (fun a => match dget program a, dget (x_to_dict original) a with
                     | Some pa, Some (o :: _) => if negb (x_ignore o) && (1 <? length pa)%nat then [(pa, o)] else []
                     | _, _ => [] end) l.
Definition width (v : list xinst * xinst) : Z := Z.log2 (Z.of_nat (length (fst v))).
Lemma bits_loop program original m : candidates_for program original -> offers program original -> forall fuel l s, (length l <= fuel)%nat ->
  (forall a, In a l -> In a (dkeys program)) -> StronglySorted (fun x y => match dget program x with Some pa => Z.of_nat (length pa) | None => 0 end <= match dget program y with Some pa => Z.of_nat (length pa) | None => 0 end) l ->
  build_loop bit_index false (x_to_dict original) fuel l program m s =
  rmap (fun s => (program, m, s)) (foldM (fun s v => let* i := find_index (fst v) (x_text (snd v)) in bit_index s i (fst v)) (visited program original l) s).
Proof. intros Cf Of. induction fuel as [|fuel IH]; intros l s Lf Kn Srt; (destruct l as [|a rest]; cbn [build_loop]; [reflexivity|]); [cbn in Lf; lia|]. inversion Srt as [|? ? Srt' _]; subst.
  pose proof (Kn a ltac:(left; reflexivity)) as Ka. pose proof (proj1 (dget_some_in _ _) Ka) as (pa & G). assert (Ia : In a (map x_addr original)) by (apply Cf, Ka). apply in_map_iff in Ia. destruct Ia as (o & Ea & Io).
  assert (Go : dget (x_to_dict original) a = Some [o]) by (rewrite <- Ea; apply x_to_dict_get; [exact (proj1 Cf)|exact Io]).
  unfold dget_r. cbn [visited flat_map]. rewrite G, Go. cbn [bind nth_r nth_error]. fold (visited program original rest). specialize (IH rest).
  assert (So : sort_addresses program rest = rest) by (apply sort_by_id; exact Srt'). rewrite So.
  assert (IH' : forall s, build_loop bit_index false (x_to_dict original) fuel rest program m s = rmap (fun s => (program, m, s)) (foldM (fun s v => let* i := find_index (fst v) (x_text (snd v)) in bit_index s i (fst v)) (visited program original rest) s)).
  { intros s'. apply IH; [cbn in Lf; lia|intros b Ib; apply Kn; right; exact Ib|exact Srt']. }
  destruct (x_ignore o) eqn:Ig; [rewrite orb_true_r; cbn [negb andb app]; apply IH'|]. rewrite orb_false_r. cbn [negb andb].
  destruct (length pa <=? 0)%nat eqn:Z0; [replace (1 <? length pa)%nat with false by lia; apply IH'|]. destruct (1 <? length pa)%nat; [|cbn [bind app]; apply IH'].
  cbn [app foldM fst snd]. destruct (find_index pa (x_text o)) as [i|]; [|reflexivity]. cbn [bind]. destruct (bit_index s i pa) as [s'|]; [|reflexivity]. cbn [bind]. apply IH'. Qed.

Fixpoint fits (off : Z) (ws : list Z) : Prop := match ws with [] => True | w :: ws' => off mod 32 + w <= 32 /\ fits (off + w) ws' end.
(** The solution as one number, least significant word first. *)
Definition as_number (bytes : list Z) : Z := fold_right (fun b n => b + n * 2 ^ 32) 0 bytes.
Record holds (q : bitqueue) (off value : Z) : Prop := {
  h_off : 0 <= off; h_bits : exists pre last, q_bytes q = pre ++ [last] /\ q_eq_word q = Z.of_nat (length pre) /\ off = 32 * Z.of_nat (length pre) + q_eq_bit q /\ 0 <= q_eq_bit q < 32 /\ 0 <= last < 2 ^ q_eq_bit q /\ Forall word pre;
  h_value : as_number (q_bytes q) = value }.
Lemma as_number_pack l : as_number l = pack 32 l.
Proof. induction l as [|b l IH]; [reflexivity|]. cbn [pack]. rewrite <- IH. reflexivity. Qed.
Lemma as_number_app a b : as_number (a ++ b) = as_number a + as_number b * 2 ^ (32 * Z.of_nat (length a)).
Proof. rewrite !as_number_pack. apply (pack_app 32 a b). lia. Qed.
Lemma holds_bound q off value : holds q off value -> 0 <= value < 2 ^ off.
Proof. intros [Ho (pre & last & E & _ & Eo & Hb & Hl & F) V]. rewrite <- V, E, as_number_app, Eo, Z.pow_add_r by lia. cbn [as_number fold_right]. pose proof (pack_bound 32 pre ltac:(lia) F) as B. rewrite <- as_number_pack in B. pose proof (pow2_pos (32 * Z.of_nat (length pre)) ltac:(lia)). nia. Qed.
Lemma enqueue_holds q off value w i : holds q off value -> 1 <= w -> off mod 32 + w <= 32 -> 0 <= i < 2 ^ w ->
  exists q', bq_enqueue (set_ws q w) i 0 = Ok q' /\ holds q' (off + w) (value + i * 2 ^ off).
Proof. intros [Ho (pre & last & E & Eq & Eo & Hb & Hl & F) V] Hw Fit Hi. destruct q as [bytes ew eb db ws]. cbn [q_bytes q_eq_word q_eq_bit q_dq_bit q_ws] in *.
  assert (Em : off mod 32 = eb) by (rewrite Eo; rewrite Z.mul_comm, Z.add_comm, Z.mod_add by lia; apply Z.mod_small; lia). rewrite Em in Fit. subst bytes ew. unfold set_ws, bq_enqueue. cbn [q_bytes q_eq_word q_eq_bit q_dq_bit q_ws].
  rewrite check_range_ok by lia. cbn [bind]. destruct (eb + w - 1 >? 31) eqn:C; [lia|]. rewrite py_get_last. cbn [bind]. rewrite Z.max_r by lia. rewrite copy_bits_ok by lia. cbn [bind]. rewrite py_set_last. cbn [bind q_ws q_eq_bit q_dq_bit q_eq_word q_bytes].
  replace (0 + w - 1) with (0 + w - 1) by lia. rewrite copy_val_with_field by lia. rewrite with_field_high by lia. assert (Fi : field i 0 w = i). { unfold field. rewrite Z.pow_0_r, Z.div_1_r. apply Z.mod_small. exact Hi. } rewrite Fi.
  assert (V2 : as_number (pre ++ [last + i * 2 ^ eb]) = value + i * 2 ^ off). { rewrite <- V, !as_number_app. cbn [as_number fold_right]. rewrite Eo, Z.pow_add_r by lia. ring. }
  assert (Hl' : 0 <= last + i * 2 ^ eb < 2 ^ (eb + w)) by (rewrite Z.pow_add_r by lia; pose proof (pow2_pos eb ltac:(lia)); nia).
  destruct (eb + w >? 31) eqn:D; eexists; (split; [reflexivity|]); constructor; cbn [q_ws q_eq_bit q_dq_bit q_eq_word q_bytes]; try lia; try exact V2.
  - assert (eb + w = 32) by lia. exists (pre ++ [last + i * 2 ^ eb]), 0. split; [reflexivity|]. split; [rewrite app_length; cbn [length]; lia|]. split; [rewrite app_length; cbn [length]; lia|]. split; [lia|]. split; [replace (eb + w - 32) with 0 by lia; cbn; lia|]. apply Forall_app. split; [exact F|]. constructor; [|constructor]. unfold word. replace 32 with (eb + w) by lia. exact Hl'.
  - rewrite as_number_app, V2. cbn [as_number fold_right]. ring.
  - exists pre, (last + i * 2 ^ eb). split; [reflexivity|]. split; [reflexivity|]. split; [lia|]. split; [lia|]. split; [exact Hl'|exact F]. Qed.

Fixpoint offset (ws : list Z) (j : nat) : Z := match j, ws with S j', w :: ws' => w + offset ws' j' | _, _ => 0 end.
Lemma bits_fold vs : forall q off value, holds q off value -> fits off (map width vs) ->
  Forall (fun v => (1 < length (fst v))%nat /\ Z.of_nat (length (fst v)) = 2 ^ width v /\ exists c, In c (fst v) /\ x_text c = x_text (snd v)) vs -> forall size,
  exists q' value', foldM (fun s v => let* i := find_index (fst v) (x_text (snd v)) in bit_index s i (fst v)) vs (size, q) = Ok (size + fold_right Z.add 0 (map width vs), q') /\
    holds q' (off + fold_right Z.add 0 (map width vs)) value' /\ value' mod 2 ^ off = value /\
    forall j v, nth_error vs j = Some v -> exists i, find_index (fst v) (x_text (snd v)) = Ok i /\ Z.of_nat i = (value' / 2 ^ (off + offset (map width vs) j)) mod 2 ^ width v.
Proof. induction vs as [|v vs IH]; intros q off value H Ft F size; cbn [foldM map fold_right].
  - exists q, value. rewrite !Z.add_0_r. split; [reflexivity|]. split; [exact H|]. split; [apply Z.mod_small, (holds_bound q off value H)|]. intros [|j] v Hv; discriminate.
  - cbn [map fits] in Ft. destruct Ft as [Ft1 Ft2]. inversion F as [|? ? (F1 & F2 & c & Fc & Ft) F3]; subst. pose proof (find_index_spec (fst v) (x_text (snd v))) as Fi. destruct (find_index (fst v) (x_text (snd v))) as [i|e] eqn:Ei; [|exfalso; destruct Fi as [_ Fi]; exact (Fi c Fc Ft)]. cbn [bind].
    assert (Wd : 1 <= width v). { unfold width. assert (Z.log2 2 <= Z.log2 (Z.of_nat (length (fst v)))) by (apply Z.log2_le_mono; lia). exact H0. }
    unfold bit_index at 1. replace (1 <? length (fst v))%nat with true by lia. cbn [fst snd]. fold (width v). pose proof (find_index_lt _ _ _ Ei) as Li.
    destruct (enqueue_holds q off value (width v) (Z.of_nat i) H Wd Ft1 ltac:(lia)) as (q1 & E1 & H1). rewrite E1. cbn [bind].
    destruct (IH q1 (off + width v) (value + Z.of_nat i * 2 ^ off) H1 Ft2 F3 (size + width v)) as (q' & value' & E & H' & Md & At). exists q', value'. pose proof (h_off _ _ _ H) as Ho. pose proof (holds_bound _ _ _ H) as Hv.
    split; [rewrite E; f_equal; f_equal; lia|]. split; [rewrite Z.add_assoc; exact H'|].
    assert (Hd : value' mod 2 ^ off = value). { assert (X : value' mod 2 ^ off = (value' mod 2 ^ (off + width v)) mod 2 ^ off). { rewrite Z.pow_add_r by lia. rewrite Z.rem_mul_r by (pose proof (pow2_pos off); pose proof (pow2_pos (width v)); lia). rewrite Z.mul_comm, Z.mod_add by (pose proof (pow2_pos off); lia). rewrite Z.mod_mod by (pose proof (pow2_pos off); lia). reflexivity. }
      rewrite X, Md, Z.mod_add by (pose proof (pow2_pos off); lia). apply Z.mod_small, Hv. }
    split; [exact Hd|]. intros [|j] u Hu; cbn [nth_error] in Hu.
    + assert (u = v) as -> by congruence. exists i. split; [exact Ei|]. cbn [offset]. rewrite Z.add_0_r. symmetry.
      assert (Md2 : value' mod (2 ^ off * 2 ^ width v) = value + Z.of_nat i * 2 ^ off) by (rewrite <- Z.pow_add_r by lia; exact Md). rewrite Z.rem_mul_r in Md2 by (pose proof (pow2_pos off); pose proof (pow2_pos (width v)); lia). rewrite Hd in Md2. pose proof (pow2_pos off Ho). nia.
    + destruct (At j u Hu) as (k & Ek & Hk). exists k. split; [exact Ek|]. cbn [offset]. rewrite Z.add_assoc. exact Hk. Qed.

Lemma decodable_as : forall program original, candidates_for program original -> offers program original ->
  let order := visited program original (sort_addresses program (dkeys program)) in
  (forall v, In v order -> Z.of_nat (length (fst v)) = 2 ^ width v) -> fits 0 (map width order) ->
  exists m q, build_bits program original = Ok (program, m, (fold_right Z.add 0 (map width order), q)) /\
    forall j v, nth_error order j = Some v -> exists i c, nth_error (fst v) i = Some c /\ x_text c = x_text (snd v) /\
      Z.of_nat i = (as_number (bq_get_bytes q) / 2 ^ offset (map width order) j) mod 2 ^ width v.
Proof. intros program original Cf Of order Pw Ft. set (l := sort_addresses program (dkeys program)) in *.
  assert (Kn : forall a, In a l -> In a (dkeys program)) by (intros a Ia; eapply Permutation_in; [apply sort_by_perm|exact Ia]).
  assert (F : Forall (fun v => (1 < length (fst v))%nat /\ Z.of_nat (length (fst v)) = 2 ^ width v /\ exists c, In c (fst v) /\ x_text c = x_text (snd v)) order).
  { apply Forall_forall. intros v Iv. assert (Hv : (1 < length (fst v))%nat /\ exists c, In c (fst v) /\ x_text c = x_text (snd v)); [|split; [apply Hv|split; [apply Pw, Iv|apply Hv]]].
    unfold order, visited in Iv. apply in_flat_map in Iv. destruct Iv as (a & Ia & Iv). assert (Ia' : In a (map x_addr original)) by (apply Cf, Kn, Ia). apply in_map_iff in Ia'. destruct Ia' as (o & Ea & Io).
    assert (Go : dget (x_to_dict original) a = Some [o]) by (rewrite <- Ea; apply x_to_dict_get; [exact (proj1 Cf)|exact Io]). destruct (dget program a) as [pa|] eqn:G; [|destruct Iv]. rewrite Go in Iv. destruct (x_ignore o) eqn:Ig; cbn [negb andb] in Iv; [destruct Iv|]. destruct (1 <? length pa)%nat eqn:El; [|destruct Iv]. destruct Iv as [<-|[]]. cbn [fst snd]. split; [lia|].
    destruct (Of o Io Ig) as (pa1 & c & G1 & Ic & T). assert (pa1 = pa) as -> by congruence. eauto. }
  assert (H0 : holds (bq_new 1) 0 0). { constructor; [lia| |reflexivity]. exists [], 0. cbn. repeat split; try lia; constructor. }
  destruct (bits_fold order (bq_new 1) 0 0 H0 Ft F 0) as (q & value & E & H & _ & At). rewrite Z.add_0_l in *. exists (counts_of original), q. split.
  - unfold build_bits, build. fold l. rewrite (bits_loop program original (counts_of original) Cf Of); [fold order; rewrite E; reflexivity| |exact Kn|apply sort_by_sorted]. unfold l, sort_addresses. rewrite (Permutation_length (sort_by_perm _ _)). unfold dkeys. rewrite map_length. lia.
  - intros j v Hv. destruct (At j v Hv) as (i & Ei & Hi). pose proof (find_index_spec (fst v) (x_text (snd v))) as Fi. rewrite Ei in Fi. destruct Fi as (c & Fc & Tc & _). exists i, c. split; [exact Fc|]. split; [exact Tc|]. rewrite Hi. unfold bq_get_bytes. rewrite (h_value _ _ _ H). reflexivity. Qed.
(** The order of the addresses: fewest candidates first, equal ones as in the program. *)
Definition offered (program : xprogram) (a : Z) : nat := match dget program a with Some pa => length pa | None => 0%nat end.
Definition in_order (program : xprogram) (l : list Z) : Prop :=
  StronglySorted (fun a b => (offered program a <= offered program b)%nat) l /\
  forall n, filter (fun a => Nat.eqb (offered program a) n) l = filter (fun a => Nat.eqb (offered program a) n) (dkeys program).
(** The addresses visited with more than one candidate: candidates and original. *)
Definition asked (program : xprogram) (original : list xinst) (l : list Z) : list (list xinst * xinst) :=
  flat_map (fun a => match dget program a, find (fun o => x_addr o =? a) original with
                     | Some pa, Some o => if negb (x_ignore o) && (1 <? length pa)%nat then [(pa, o)] else []
                     | _, _ => [] end) l.
Lemma order_unique {A} (f : A -> nat) : forall l1 l2, StronglySorted (fun a b => (f a <= f b)%nat) l1 -> StronglySorted (fun a b => (f a <= f b)%nat) l2 ->
  (forall n, filter (fun a => Nat.eqb (f a) n) l1 = filter (fun a => Nat.eqb (f a) n) l2) -> l1 = l2.
Proof. assert (N : forall n l, Forall (fun b => (n < f b)%nat) l -> filter (fun a => Nat.eqb (f a) n) l = []).
  { induction 1 as [|b l H F IH]; [reflexivity|]. cbn [filter]. destruct (Nat.eqb_spec (f b) n); [lia|exact IH]. }
  assert (M : forall a l1 b l2, StronglySorted (fun a b => (f a <= f b)%nat) (b :: l2) -> (forall n, filter (fun a => Nat.eqb (f a) n) (a :: l1) = filter (fun a => Nat.eqb (f a) n) (b :: l2)) -> (f b <= f a)%nat).
  { intros a l1 b l2 S H. destruct (Nat.le_gt_cases (f b) (f a)) as [L|L]; [exact L|]. specialize (H (f a)). rewrite (N (f a) (b :: l2)) in H; [cbn [filter] in H; rewrite Nat.eqb_refl in H; discriminate|].
    inversion S as [|? ? _ F]; subst. constructor; [exact L|]. eapply Forall_impl; [|exact F]. intros c Hc. cbn in Hc. lia. }
  induction l1 as [|a l1 IH]; intros [|b l2] S1 S2 H.
  - reflexivity.
  - specialize (H (f b)). cbn [filter] in H. rewrite Nat.eqb_refl in H. discriminate.
  - specialize (H (f a)). cbn [filter] in H. rewrite Nat.eqb_refl in H. discriminate.
  - pose proof (M a l1 b l2 S2 H) as L1. pose proof (M b l2 a l1 S1 (fun n => eq_sym (H n))) as L2. assert (E : f a = f b) by lia. pose proof (H (f a)) as Ha. cbn [filter] in Ha. rewrite <- E, Nat.eqb_refl in Ha. assert (a = b) as <- by congruence. f_equal.
    inversion S1; subst. inversion S2; subst. apply IH; [assumption|assumption|]. intros n. specialize (H n). cbn [filter] in H. destruct (Nat.eqb (f a) n); [congruence|exact H]. Qed.
Lemma insert_filter {A} (key : A -> Z) (g : A -> bool) a l : (forall x y, g x = true -> g y = true -> key x = key y) -> filter g (insert_by key a l) = filter g (a :: l).
Proof. intros H. induction l as [|b l IH]; [reflexivity|]. cbn [insert_by]. destruct (key a <=? key b) eqn:E; [reflexivity|]. cbn [filter] in *. rewrite IH. destruct (g a) eqn:Ga; [|reflexivity]. destruct (g b) eqn:Gb; [|reflexivity]. specialize (H a b Ga Gb). lia. Qed.
Lemma sort_order program : in_order program (sort_addresses program (dkeys program)).
Proof. unfold in_order, sort_addresses. set (key := fun a : Z => match dget program a with Some pa => Z.of_nat (length pa) | None => 0 end). assert (K : forall a, key a = Z.of_nat (offered program a)) by (intros a; unfold key, offered; destruct (dget program a); reflexivity). split.
  - pose proof (sort_by_sorted key (dkeys program)) as S. induction S as [|a l S IH F]; constructor; [exact IH|]. eapply Forall_impl; [|exact F]. intros b Hb. cbn beta in Hb. rewrite !K in Hb. lia.
  - intros n. induction (dkeys program) as [|a l IH]; [reflexivity|]. cbn [sort_by fold_right]. fold (sort_by key l). rewrite insert_filter; [cbn [filter]; rewrite IH; reflexivity|]. intros x y Hx Hy. rewrite !K. apply Nat.eqb_eq in Hx, Hy. lia. Qed.
Lemma asked_visited program original l : candidates_for program original -> (forall a, In a l -> In a (dkeys program)) -> asked program original l = visited program original l.
Proof. intros Cf H. unfold asked, visited. induction l as [|a l IH]; [reflexivity|]. cbn [flat_map]. rewrite IH by (intros b Hb; apply H; right; exact Hb). f_equal.
  assert (Ia : In a (map x_addr original)) by (apply Cf, H; left; reflexivity). apply in_map_iff in Ia. destruct Ia as (o & Ea & Io). assert (Go : dget (x_to_dict original) a = Some [o]) by (rewrite <- Ea; apply x_to_dict_get; [exact (proj1 Cf)|exact Io]). rewrite Go.
  destruct (find (fun o => x_addr o =? a) original) as [o'|] eqn:E.
  - apply find_some in E. destruct E as [Io' Ea']. assert (Go' : dget (x_to_dict original) a = Some [o']) by (replace a with (x_addr o') by lia; apply x_to_dict_get; [exact (proj1 Cf)|exact Io']). assert (o' = o) as -> by congruence. reflexivity.
  - pose proof (find_none _ _ E o Io) as X. cbn beta in X. lia. Qed.
(** The index of the original in each ambiguous address is read at a position that
    depends on the candidate lists (and on which originals are ignored) only. *)
Theorem C50_decodable_partial : forall program original l, candidates_for program original -> offers program original -> in_order program l ->
  let order := asked program original l in
  (forall v, In v order -> Z.of_nat (length (fst v)) = 2 ^ width v) -> fits 0 (map width order) ->
  exists m q, build_bits program original = Ok (program, m, (fold_right Z.add 0 (map width order), q)) /\
    forall j v, nth_error order j = Some v -> exists i c, nth_error (fst v) i = Some c /\ x_text c = x_text (snd v) /\
      Z.of_nat i = (as_number (bq_get_bytes q) / 2 ^ offset (map width order) j) mod 2 ^ width v.
Proof. intros program original l Cf Of O. assert (l = sort_addresses program (dkeys program)) as ->. { destruct O as [S F]. destruct (sort_order program) as [S' F']. eapply order_unique; [exact S|exact S'|]. intros n. rewrite F, F'. reflexivity. }
  cbv zeta. rewrite asked_visited; [|exact Cf|intros a Ia; eapply Permutation_in; [apply sort_by_perm|exact Ia]]. apply decodable_as; assumption. Qed.
Print Assumptions C50_decodable_partial.
(** It is enough that all fits into one word. *)
Theorem C50_one_word : forall ws, Forall (fun w => 0 <= w) ws -> fold_right Z.add 0 ws <= 32 -> fits 0 ws.
Proof. assert (G : forall ws off, 0 <= off -> Forall (fun w => 0 <= w) ws -> off + fold_right Z.add 0 ws <= 32 -> fits off ws).
  { induction ws as [|w ws IH]; intros off Ho F L; [exact I|]. inversion F as [|? ? F1 F2]; subst. cbn [fold_right] in L. assert (S0 : 0 <= fold_right Z.add 0 ws) by (clear - F2; induction F2; cbn [fold_right]; lia). cbn [fits]. split; [|apply IH; [lia|exact F2|lia]].
    destruct (Z.eq_dec off 32) as [->|]; [change (32 mod 32) with 0; lia|]. rewrite Z.mod_small by lia. lia. }
  intros ws F L. apply G; [lia|exact F|lia]. Qed.
Print Assumptions C50_one_word.
Example C50_example : let p := [(0, [sel 0 1; sel 0 2; sel 0 3; sel 0 4]); (4, [sel 4 5; sel 4 6]); (8, [sel 8 7])] in
  in_order p [8; 4; 0] /\ map width (asked p [sel 0 4; sel 4 5; sel 8 7] [8; 4; 0]) = [1; 2] /\
  match build_bits p [sel 0 4; sel 4 5; sel 8 7] with Ok (_, _, (size, q)) => (size, bq_get_bytes q) | Err _ => (0, []) end = (3, [6]).
Proof. intros p. split; [apply (sort_order p)|]. vm_compute. auto. Qed.
