(** C162: the order of candidates and addresses in one pass of the rules. *)
From Verif Require Import ListLemmas FlipModel FlipProofs InstModel MetaModel MetaSpec MetaProofs MetaProps BlaumProofs RecModel RecSpec RecProofs RecProofs3 GraphProofs RulesModel RulesSpec RulesProofs RulesProofs2 RulesProofs3 RulesProofs4 RulesProofs5 RulesProofs6 RulesProofs7 RulesProps OrderProofs DistanceProps CountExactProps OnePassProps DistanceBoundProps.
From Coq Require Import ZifyBool ZifyNat Lqa Qminmax Permutation.

(** *** Proof *)
Lemma filter_perm {A} (f : A -> bool) l m : Permutation l m -> Permutation (filter f l) (filter f m).
Proof. induction 1 as [|x l m P IH|x y l|l m n P IH Q0 IH2]; cbn [filter]; [constructor| | |eapply Permutation_trans; eassumption].
  - destruct (f x); [constructor|]; exact IH.
  - destruct (f x), (f y); try apply Permutation_refl. constructor. Qed.
Lemma live_perm l m : Permutation l m -> Permutation (live l) (live m).
Proof. apply filter_perm. Qed.
Lemma resolved_perm l m : Permutation l m -> resolved l = resolved m.
Proof. intros P. unfold resolved. rewrite (Permutation_length (live_perm _ _ P)). reflexivity. Qed.
Lemma defined_perm p q b : alike p q -> Permutation (defined_at p b) (defined_at q b).
Proof. intros H. specialize (H b). unfold defined_at. destruct (dget p b), (dget q b); try contradiction; [apply live_perm; exact H|constructor]. Qed.
Lemma all_perm p q b : alike p q -> all_at p b = all_at q b.
Proof. intros H. unfold all_at. rewrite (Permutation_length (defined_perm _ _ b H)). reflexivity. Qed.
Lemma number_perm f p q b : alike p q -> number_at f p b = number_at f q b.
Proof. intros H. unfold number_at. rewrite (Permutation_length (filter_perm f _ _ (defined_perm _ _ b H))). reflexivity. Qed.
Lemma dmem_alike (p q : rprogram) b : alike p q -> dmem p b = dmem q b.
Proof. intros H. specialize (H b). unfold dmem. destruct (dget p b), (dget q b); try contradiction; reflexivity. Qed.
Lemma flow_alike m p q a c : alike p q -> flow_score m p a c = flow_score m q a c.
Proof. intros H. unfold flow_score, neighbour, flag_loss, jump_gain. rewrite !(all_perm p q) by exact H. rewrite !(number_perm _ p q) by exact H. destruct (d_jump (r_inst c)); [rewrite (dmem_alike p q) by exact H|]; reflexivity. Qed.

Lemma largest_perm l m : Permutation l m -> (largest l == largest m)%Q.
Proof. induction 1 as [|x l m P IH|x y l|l m n P IH Q0 IH2]; cbn [largest fold_right]; [reflexivity| | |rewrite IH; exact IH2].
  - fold (largest l) (largest m). rewrite IH. reflexivity.
  - fold (largest l). rewrite !Q.max_assoc, (Q.max_comm y x). reflexivity. Qed.
Lemma credit_alike p q w r : alike p q -> (credit_for p w r == credit_for q w r)%Q.
Proof. intros H. unfold credit_for. rewrite (largest_perm (flat_map (shares_at p r) w) (flat_map (shares_at q r) w)); [reflexivity|]. induction w as [|b w IH]; cbn [flat_map]; [constructor|]. apply Permutation_app; [|exact IH]. unfold shares_at. rewrite (all_perm p q b H). apply Permutation_map, filter_perm, defined_perm, H. Qed.
Lemma distance_alike col p q a c : alike p q -> same_number (distance_score col p a c) (distance_score col q a c).
Proof. intros H. unfold distance_score. destruct (r_ignore c); [reflexivity|]. destruct (Nat.eqb _ 0); [reflexivity|]. assert (E : forall w, existsb (dmem p) w = existsb (dmem q) w) by (induction w as [|b w IH]; cbn [existsb]; [reflexivity|rewrite (dmem_alike p q b H), IH; reflexivity]).
  rewrite E. destruct (existsb _ _); [|exact Logic.I]. cbn [same_number]. rewrite (average_eq (credit_for p _) (credit_for q (window col a (d_read (r_inst c))))); [reflexivity|]. intros r _. apply credit_alike, H. Qed.

Lemma alike_cons (p q : rprogram) a l : NoDup (dkeys ((a, l) :: p)) -> NoDup (dkeys q) -> alike ((a, l) :: p) q -> exists q1 m q2, q = q1 ++ (a, m) :: q2 /\ Permutation l m /\ alike p (q1 ++ q2) /\ NoDup (dkeys (q1 ++ q2)).
Proof. intros N N' H. pose proof (H a) as Ha. cbn [dget] in Ha. rewrite Z.eqb_refl in Ha. destruct (dget q a) as [m|] eqn:G; [|contradiction]. apply dget_in in G. destruct (in_split _ _ G) as (q1 & q2 & ->).
  exists q1, m, q2. unfold dkeys in N', N. rewrite map_app in N'. cbn [map fst] in N'. pose proof (NoDup_remove_1 _ _ _ N') as N1. pose proof (NoDup_remove_2 _ _ _ N') as N2. rewrite <- map_app in N1, N2.
  split; [reflexivity|]. split; [exact Ha|]. split; [|exact N1]. cbn [map fst] in N. inversion N as [|? ? Na _]; subst. intros b. specialize (H b). cbn [dget] in H. destruct (Z.eqb_spec b a) as [E|D]; [rewrite E in *; clear E|].
  - replace (dget p a) with (@None (list rcand)) by (symmetry; apply dget_none; exact Na). replace (dget (q1 ++ q2) a) with (@None (list rcand)) by (symmetry; apply dget_none; exact N2). exact Logic.I.
  - replace (dget (q1 ++ q2) b) with (dget (q1 ++ (a, m) :: q2) b); [exact H|]. clear - D. induction q1 as [|[k v] q1 IH]; cbn [app dget]; [destruct (Z.eqb_spec b a); [contradiction|reflexivity]|]. destruct (b =? k); [reflexivity|exact IH]. Qed.
Lemma values_alike {B} (f : list rcand -> list B) p : (forall l m, Permutation l m -> Permutation (f l) (f m)) -> forall q, NoDup (dkeys p) -> NoDup (dkeys q) -> alike p q -> Permutation (flat_map f (dvalues p)) (flat_map f (dvalues q)).
Proof. intros F. induction p as [|[a l] p IH]; intros q N N' H.
  - destruct q as [|[b m] q]; [constructor|]. specialize (H b). cbn [dget] in H. rewrite Z.eqb_refl in H. contradiction.
  - destruct (alike_cons p q a l N N' H) as (q1 & m & q2 & -> & P & A & N2). unfold dkeys in N. cbn [map] in N. inversion N; subst. specialize (IH _ ltac:(assumption) N2 A). unfold dvalues in *. rewrite map_app in *. cbn [map flat_map snd]. rewrite flat_map_app in *. cbn [flat_map].
    eapply Permutation_trans; [apply Permutation_app; [apply F; exact P|exact IH]|]. rewrite !app_assoc. apply Permutation_app_tail. apply Permutation_app_comm. Qed.
Lemma flat_filter {A B} (f : A -> list B) (g : A -> bool) l : flat_map f (filter g l) = flat_map (fun x => if g x then f x else []) l.
Proof. induction l as [|x l IH]; cbn [filter flat_map]; [reflexivity|]. destruct (g x); cbn [flat_map app]; rewrite IH; reflexivity. Qed.
Lemma times_perm values v l m : Permutation l m -> times values v l = times values v m.
Proof. intros P. unfold times. f_equal. apply Permutation_count_occ. apply Permutation_flat_map. exact P. Qed.
Lemma chance_alike values counts p q v : NoDup (dkeys p) -> NoDup (dkeys q) -> alike p q -> chance values counts p v = chance values counts q v.
Proof. intros N N' H. unfold chance, used_up, still_open.
  assert (E : forall g : list rcand -> bool, (forall l m, Permutation l m -> g l = g m) -> times values v (flat_map live (filter g (dvalues p))) = times values v (flat_map live (filter g (dvalues q)))).
  { intros g Hg. apply times_perm. rewrite !flat_filter. apply values_alike; try assumption. intros l m P. rewrite (Hg l m P). destruct (g m); [apply live_perm; exact P|constructor]. }
  rewrite (E resolved) by apply resolved_perm. rewrite (E (fun l => negb (resolved l))) by (intros l m P; rewrite (resolved_perm l m P); reflexivity). reflexivity. Qed.
Lemma mean_alike values counts p q c : NoDup (dkeys p) -> NoDup (dkeys q) -> alike p q -> mean_chance values counts p c = mean_chance values counts q c.
Proof. intros N N' H. unfold mean_chance. replace (map (chance values counts q) (values c)) with (map (chance values counts p) (values c)); [reflexivity|]. apply map_ext. intros v. apply chance_alike; assumption. Qed.
Lemma first_seen p : first_defined p -> CountExactProps.seen p = p.
Proof. intros F. unfold CountExactProps.seen. induction p as [|[a l] p IH]; [reflexivity|]. cbn [filter snd]. unfold overlooked at 1. destruct (resolved l) eqn:R; cbn [andb negb].
  - destruct (F a l (or_introl eq_refl) R) as (c & l' & -> & Ig). rewrite Ig. cbn [negb]. rewrite IH; [reflexivity|]. intros b m I. apply (F b m). right; exact I.
  - rewrite IH; [reflexivity|]. intros b m I. apply (F b m). right; exact I. Qed.

Lemma alike_in (p q : rprogram) a m c : NoDup (dkeys q) -> alike p q -> In (a, m) q -> In c m -> exists l, In (a, l) p /\ In c l.
Proof. intros N H I J. pose proof (H a) as Ha. rewrite (dget_nodup_in q a m N I) in Ha. destruct (dget p a) as [l|] eqn:G; [|contradiction]. exists l. split; [apply dget_in; exact G|]. eapply Permutation_in; [apply Permutation_sym; exact Ha|exact J]. Qed.
Lemma original_alike orig p q : NoDup (dkeys q) -> alike p q -> original_among orig p -> original_among orig q.
Proof. intros N H (N1 & N2 & H1 & H2 & H3). split; [exact N1|]. split; [exact N|]. split; [|split].
  - intros o I. destruct (H1 o I) as (A & l & c & G & J & B). split; [exact A|]. pose proof (H (d_addr (r_inst o))) as Ha. rewrite G in Ha. destruct (dget q (d_addr (r_inst o))) as [m|]; [|contradiction]. exists m, c. split; [reflexivity|]. split; [eapply Permutation_in; eassumption|exact B].
  - intros a I. apply H2. apply (alike_keys p q a H). exact I.
  - intros a m c I J. destruct (alike_in p q a m c N H I J) as (l & I' & J'). exact (H3 a l c I' J'). Qed.

Lemma forall2_at {A B} (R : A -> B -> Prop) l l' i x : Forall2 R l l' -> nth_error l i = Some x -> exists y, nth_error l' i = Some y /\ R x y.
Proof. intros F. revert i. induction F as [|a b l l' H F IH]; intros [|i] E; cbn [nth_error] in *; try discriminate; [injection E as <-; eauto|exact (IH i E)]. Qed.
Lemma same_via x y u v : same_number x u -> same_number y v -> same_number u v -> same_number x y.
Proof. destruct x, y, u, v; cbn [same_number]; try tauto. intros -> -> ->. reflexivity. Qed.

(** C162.  Missing: only if the defined candidate of each resolved address comes first in both orders (always true where nothing is ignored). *)
Theorem C162_order_partial : forall orig p q, let col := collect new_collector (map r_inst orig) in
  original_among orig p -> conditions_ok p -> storages_ok p -> writes_ok p -> Z.of_nat (length orig) < 2 ^ 63 -> first_defined p -> first_defined q -> NoDup (dkeys q) -> alike p q ->
  exists p' q', rule_recover 1 col p = Ok p' /\ rule_recover 1 col q = Ok q' /\
    forall a l m i j c, dget p a = Some l -> dget q a = Some m -> (1 < length l)%nat -> nth_error l i = Some c -> nth_error m j = Some c -> r_ignore c = false ->
    exists l' m' c' d', dget p' a = Some l' /\ dget q' a = Some m' /\ nth_error l' i = Some c' /\ nth_error m' j = Some d' /\
      forall k, In k [key_of RCfg 0; key_of RCond 0; key_of RInst 0; key_of RReg 0; key_of RDist 0] -> same_number (dget (r_scores c') k) (dget (r_scores d') k).
Proof. intros orig p q col O CO SO Wo Len Fp Fq N H.
  destruct (C113_any_program orig p O CO SO Wo Len) as (p' & Ep & Gp).
  destruct (C113_any_program orig q (original_alike orig p q N H O)) as (q' & Eq & Gq); [intros a m c I J; destruct (alike_in p q a m c N H I J) as (l & I' & J'); exact (CO a l c I' J')|intros a m c r I J; destruct (alike_in p q a m c N H I J) as (l & I' & J'); exact (SO a l c r I' J')|intros a m c r I J; destruct (alike_in p q a m c N H I J) as (l & I' & J'); exact (Wo a l c r I' J')|exact Len|].
  exists p', q'. split; [exact Ep|]. split; [exact Eq|]. intros a l m i j c Gl Gm L Il Jm Ig.
  assert (P : Permutation l m) by (pose proof (H a) as Ha; rewrite Gl, Gm in Ha; exact Ha). destruct (Gp a l Gl L) as (l' & Gl' & Fl). destruct (Gq a m Gm) as (m' & Gm' & Fm); [rewrite <- (Permutation_length P); exact L|].
  destruct (forall2_at _ _ _ _ _ Fl Il) as (c' & Ic' & A1 & A2 & A3). destruct (forall2_at _ _ _ _ _ Fm Jm) as (d' & Id' & B1 & B2 & B3). exists l', m', c', d'. repeat (split; [assumption|]).
  assert (Cn : forall r, same_number (dget (r_scores c') (key r 0)) (dget (r_scores d') (key r 0))).
  { intros r. eapply same_via; [exact (A2 Ig r)|exact (B2 Ig r)|]. rewrite !first_seen by assumption. rewrite (mean_alike _ _ p q c (proj1 (proj2 O)) N H). reflexivity. }
  intros k [<-|[<-|[<-|[<-|[<-|[]]]]]].
  - eapply same_via; [exact A1|exact B1|]. rewrite (flow_alike _ p q a c H). reflexivity.
  - exact (Cn ByCond).
  - exact (Cn ByInst).
  - exact (Cn ByReg).
  - eapply same_via; [exact A3|exact B3|]. pose proof (distance_alike (collect new_collector (map r_inst orig)) p q a c H) as D. destruct (distance_score _ p a c), (distance_score _ q a c); cbn [same_number] in D; try contradiction; [exact D|]. destruct (dget (r_scores c) (key_of RDist 0)); cbn [same_number]; [reflexivity|exact Logic.I]. Qed.
Print Assumptions C162_order_partial.

(** Two candidates of the first address change places, and the score of a candidate elsewhere changes. *)
Definition r_prog3 : rprogram := map (fun kv => (fst kv, rev (snd kv))) r_prog2.
Theorem C162_order_refuted : exists orig p q p' q' a l m k, original_among orig p /\ conditions_ok p /\ storages_ok p /\ writes_ok p /\ NoDup (dkeys q) /\ alike p q /\
  rule_recover 1 (collect new_collector (map r_inst orig)) p = Ok p' /\ rule_recover 1 (collect new_collector (map r_inst orig)) q = Ok q' /\
  dget p' a = Some l /\ dget q' a = Some m /\ exists i j c d, nth_error l i = Some c /\ nth_error m j = Some d /\ r_inst c = r_inst d /\ r_ignore c = false /\ ~ same_number (dget (r_scores c) k) (dget (r_scores d) k).
Proof. destruct C113_any_program_example as (A & B & C & D & _).
  exists r_orig, r_prog2, r_prog3. eexists _, _, 4, _, _, 1. split; [exact A|]. split; [exact B|]. split; [exact C|]. split; [exact D|]. split; [repeat constructor; cbn; intuition discriminate|]. split.
  { intros a. unfold r_prog3, r_prog2. cbn [map rev fst snd app dget]. destruct (a =? 0); [constructor|]. destruct (a =? 4); [constructor|exact Logic.I]. }
  split; [vm_compute; reflexivity|]. split; [vm_compute; reflexivity|]. split; [reflexivity|]. split; [reflexivity|]. exists 0%nat, 1%nat. eexists _, _. split; [reflexivity|]. split; [reflexivity|]. split; [reflexivity|]. split; [reflexivity|]. vm_compute. discriminate. Qed.
Print Assumptions C162_order_refuted.
Example C162_example : let q := [(4, [r_x; r_b]); (0, [r_a])] in original_among r_orig r_prog /\ conditions_ok r_prog /\ storages_ok r_prog /\ writes_ok r_prog /\ first_defined r_prog /\ first_defined q /\ NoDup (dkeys q) /\ alike r_prog q.
Proof. destruct C113_example as (A & B & C & D & _). cbv zeta. split; [exact A|]. split; [exact C|]. split; [exact D|]. split; [|split; [exact B|]]; [|split; [|split]].
  - intros a l c r [E|[E|[]]]; injection E as <- <-; intros I J; cbn [In] in I; repeat destruct I as [<-|I]; try contradiction; vm_compute in J; intuition lia.
  - intros a l [E|[E|[]]]; injection E as <- <-; intros R; [discriminate R|]. exists r_a, []. split; reflexivity.
  - repeat constructor; cbn; intuition discriminate.
  - intros a. unfold r_prog. cbn [dget]. destruct (Z.eqb_spec a 0) as [->|D0]; [constructor; constructor|]. destruct (a =? 4); [constructor|exact Logic.I]. Qed.
