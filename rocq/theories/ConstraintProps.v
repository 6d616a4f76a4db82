(** C51-C53, C75: the exact-sum constraint and the constraint problem. *)
From Verif Require Import ListLemmas FlipProofs MetaModel MetaSpec MetaProofs MetaProps BuilderModel BuilderSpec BuilderProofs.
From Coq Require Import ZifyBool ZifyNat Permutation.

Definition inst (id : Z) (ignored : bool) (stores : list Z) : xinst := mkX (mkD id 0 ignored 14 1 stores [] [] [] [] false KOther None) id stores id.

Lemma flat_map_eq {A B} (f g : A -> list B) l : (forall a, In a l -> f a = g a) -> flat_map f l = flat_map g l.
Proof. induction l as [|a l IH]; intros H; [reflexivity|]. cbn [flat_map]. rewrite H by (left; reflexivity). f_equal. apply IH. intros; apply H; right; assumption. Qed.
Lemma perm_count (l l' : list Z) k : Permutation l l' -> count_occ Z.eq_dec l k = count_occ Z.eq_dec l' k.
Proof. induction 1; cbn [count_occ]; [reflexivity| | |congruence]; repeat match goal with |- context[Z.eq_dec ?a k] => destruct (Z.eq_dec a k) end; congruence. Qed.
Lemma complete_call exact field vars doms asg fc : complete vars asg ->
  constraint_call exact field vars doms asg fc = rmap (fun r => (doms, snd r)) (constraint_call exact field vars [] asg false).
Proof. intros C. unfold constraint_call. destruct (sums exact field vars asg) as [sum missing] eqn:H. destruct (sums_spec _ _ _ _ _ _ H) as (_ & M & _). assert (missing = false) as ->. { destruct missing; [|reflexivity]. exfalso. apply (proj1 M eq_refl C). }
  destruct (existsb (too_many exact) sum); [reflexivity|]. rewrite !andb_false_r. cbn [bind]. destruct (final_check exact sum false); reflexivity. Qed.

(** C51. *)
Theorem C51_complete : forall exact field vars doms asg fc, NoDup vars -> complete vars asg ->
  exists b, constraint_call exact field vars doms asg fc = Ok (doms, b) /\ (b = true <-> forall k, number field vars asg k = required exact k).
Proof. intros exact field vars doms asg fc N C. rewrite complete_call by exact C. assert (P : proper_domains vars [] asg) by (split; [discriminate|intros v I A; exfalso; exact (C v I A)]).
  pose proof (call_spec exact field vars [] asg false N P) as H. destruct (constraint_call exact field vars [] asg false) as [[d b]|e]; [|destruct H as (_ & X & _); discriminate]. cbn [rmap snd]. exists b. split; [reflexivity|]. destruct H as (_ & _ & B & _). split.
  - intros -> k. destruct (Z.eq_dec (number field vars asg k) (required exact k)) as [E|E]; [exact E|]. exfalso. assert (X : true = false); [|discriminate]. apply B. right. left. split; [exact C|eauto].
  - intros E. destruct b; [reflexivity|]. exfalso. destruct (proj1 B eq_refl) as [(k & O)|[(_ & k & X)|(X & _)]]; [|exact (X (E k))|discriminate]. specialize (E k). unfold required, dmem in *. destruct (dget exact k), O as [[? ?]|[? ?]]; try discriminate; lia. Qed.
Print Assumptions C51_complete.
Example C51_example : let asg := [(0, inst 1 false [1; 2]); (4, inst 2 true [7]); (8, inst 3 false [2])] in
  constraint_call [(1, 1); (2, 2)] x_stores [0; 4; 8] [] asg true = Ok ([], true) /\
  constraint_call [(1, 1); (2, 2); (3, 1)] x_stores [0; 4; 8] [] asg true = Ok ([], false) /\
  constraint_call [(2, 2)] x_stores [0; 4; 8] [] asg true = Ok ([], false).
Proof. vm_compute. auto. Qed.

(** C52. *)
Theorem C52_sound : forall exact field vars doms asg fc doms' b, NoDup vars -> proper_domains vars doms asg ->
  constraint_call exact field vars doms asg fc = Ok (doms', b) ->
  (b = false -> forall asg', completes vars doms asg asg' -> ~ satisfies exact field vars asg') /\
  (forall v dom, dget doms v = Some dom -> exists dom', dget doms' v = Some dom' /\ incl dom' dom /\
     (dget asg v <> None \/ ~ In v vars \/ fc = false -> dom' = dom) /\
     forall i, In i dom -> ~ In i dom' -> forall asg', completes vars doms asg asg' -> dget asg' v = Some i -> ~ satisfies exact field vars asg').
Proof. intros exact field vars doms asg fc doms' b N P E. pose proof (call_spec exact field vars doms asg fc N P) as H. rewrite E in H. destruct H as (_ & A & B & _). split.
  - intros -> asg' C S. destruct (proj1 B eq_refl) as [O|[(Cm & k & X)|(_ & v & dom & I & Av & G & F)]].
    + exact (over_hopeless _ _ _ _ _ _ O C S).
    + apply X. destruct S as [_ S]. rewrite <- (S k). unfold number, assigned_fields. rewrite (flat_map_eq (fun v => match dget asg v with Some i => if x_ignore i then [] else field i | None => [] end) (fun v => match dget asg' v with Some i => if x_ignore i then [] else field i | None => [] end)); [reflexivity|]. intros v I. specialize (C v I). destruct (dget asg v) eqn:Ea; [rewrite C; reflexivity|]. exfalso. exact (Cm v I Ea).
    + pose proof (C v I) as Cv. rewrite Av in Cv. destruct Cv as (d & i & Gd & Ii & Ai). assert (d = dom) as -> by congruence. apply (excess_hopeless exact field vars doms asg asg' v i C I Av Ai); [|exact S].
      apply filter_nil_forallb in F. rewrite forallb_forall in F. specialize (F i Ii). destruct (keeps exact field vars asg i); [discriminate|reflexivity].
  - intros v dom G. destruct (A v dom G) as (dom' & G' & X). exists dom'. split; [exact G'|]. destruct X as [-> |(F & _ & I & Av & ->)].
    + split; [intros x Hx; exact Hx|]. split; [reflexivity|]. intros i I1 I2. contradiction.
    + split; [intros x Hx; apply filter_In in Hx; tauto|]. split; [intros [X|[X|X]]; [contradiction|contradiction|congruence]|]. intros i Ii Ni asg' C Ai. apply (excess_hopeless exact field vars doms asg asg' v i C I Av Ai). destruct (keeps exact field vars asg i) eqn:K; [|reflexivity]. exfalso. apply Ni, filter_In. auto. Qed.
Print Assumptions C52_sound.
(** How much it prunes: an accepting call with forward checking leaves exactly the
    values that fit, at least one per variable. *)
Theorem C52_exact : forall exact field vars doms asg doms', NoDup vars -> proper_domains vars doms asg ->
  constraint_call exact field vars doms asg true = Ok (doms', true) ->
  forall v dom, In v vars -> dget asg v = None -> dget doms v = Some dom ->
  exists dom', dget doms' v = Some dom' /\ dom' <> [] /\
    forall i, In i dom' <-> In i dom /\ (x_ignore i = true \/ forall k, In k (field i) -> dmem exact k = true /\ number field vars asg k + 1 <= required exact k).
Proof. intros exact field vars doms asg doms' N P E v dom I Av G. pose proof (call_spec exact field vars doms asg true N P) as H. rewrite E in H. destruct H as (_ & _ & B & F). specialize (F eq_refl eq_refl v dom I Av G). exists (filter (keeps exact field vars asg) dom). split; [exact F|]. split.
  - intros X. assert (Y : true = false); [|discriminate]. apply B. right. right. split; [reflexivity|]. exists v, dom. auto.
  - intros i. rewrite filter_In. assert (K : keeps exact field vars asg i = true <-> x_ignore i = true \/ forall k, In k (field i) -> dmem exact k = true /\ number field vars asg k + 1 <= required exact k); [|rewrite K; reflexivity].
    unfold keeps, excess. destruct (x_ignore i); [split; [left; reflexivity|reflexivity]|]. split.
    + intros H. right. intros k Ik. destruct (filter _ (field i)) eqn:Ef; [|discriminate]. apply filter_nil_forallb in Ef. rewrite forallb_forall in Ef. specialize (Ef k Ik). unfold exceeds in Ef. destruct (dmem exact k); [|discriminate]. split; [reflexivity|]. cbn [negb orb] in Ef. lia.
    + intros [X|X]; [discriminate|]. assert (Ef : filter (exceeds exact field vars asg) (field i) = []); [|rewrite Ef; reflexivity]. apply filter_nil_forallb, forallb_forall. intros k Ik. destruct (X k Ik) as [M Y]. unfold exceeds. rewrite M. cbn [negb orb]. lia. Qed.
Print Assumptions C52_exact.
Example C52_example : let doms := [(4, [inst 2 false [1]; inst 3 false [2]; inst 4 true [9]]); (8, [inst 5 false [2]])] in
  constraint_call [(1, 1); (2, 2)] x_stores [0; 4; 8] doms [(0, inst 1 false [1])] true =
    Ok ([(4, [inst 3 false [2]; inst 4 true [9]]); (8, [inst 5 false [2]])], true) /\
  constraint_call [(1, 1); (2, 0)] x_stores [0; 4; 8] doms [(0, inst 1 false [1])] true = Ok ([(4, [inst 4 true [9]]); (8, [])], false).
Proof. vm_compute. auto. Qed.

(** C53.  Refuted: a value is hidden once for every field value in excess. *)
Theorem C53_forward_check_refuted : exists exact vars doms, NoDup vars /\ proper_domains vars doms [] /\ constraint_call exact x_stores vars doms [] true = Err ValueError.
Proof. exists [(1, 0); (2, 0)], [0], [(0, [inst 1 false [1; 2]])]. split; [constructor; [intros []|constructor]|]. split; [|reflexivity]. split.
  - intros v dom H. cbn [dget] in H. destruct (v =? 0); [|discriminate]. injection H as <-. cbn. constructor; [intros []|constructor].
  - intros v [<-|[]] _. eexists. reflexivity. Qed.
Print Assumptions C53_forward_check_refuted.
(** Exactly when: an unassigned variable has a value with two or more field values
    in excess, and no variable before it ran out of values. *)
Lemma bad_before_iff exact field vars asg l doms : (forall v, In v l -> dget asg v = None -> exists dom, dget doms v = Some dom) ->
  bad_before exact field vars asg l doms = true <->
  exists pre v post dom i, l = pre ++ v :: post /\ dget asg v = None /\ dget doms v = Some dom /\ In i dom /\ (2 <= length (excess exact field vars asg i))%nat /\
    forall w, In w pre -> dget asg w = None -> exists d j, dget doms w = Some d /\ In j d /\ excess exact field vars asg j = [].
Proof. induction l as [|v l IH]; intros P; cbn [bad_before]; [split; [discriminate|intros (pre & v & post & dom & i & E & _); destruct pre; discriminate]|].
  specialize (IH ltac:(intros; apply P; [right|]; assumption)). unfold dmem. destruct (dget asg v) as [x|] eqn:Ea.
  - rewrite IH. split; intros (pre & w & post & dom & i & E & A & R).
    + exists (v :: pre), w, post, dom, i. split; [rewrite E; reflexivity|]. split; [exact A|]. destruct R as (R1 & R2 & R3 & R4). split; [exact R1|]. split; [exact R2|]. split; [exact R3|]. intros y [<-|Iy] Ay; [congruence|apply R4; assumption].
    + destruct pre as [|y pre]; [cbn [app] in E; assert (v = w) by congruence; congruence|]. exists pre, w, post, dom, i. split; [cbn [app] in E; congruence|]. split; [exact A|]. destruct R as (R1 & R2 & R3 & R4). split; [exact R1|]. split; [exact R2|]. split; [exact R3|]. intros z Iz Az; apply R4; [right|]; assumption.
  - destruct (P v ltac:(left; reflexivity) Ea) as (dom & G). rewrite G. rewrite orb_true_iff, andb_true_iff, IH. split.
    + intros [X|[X (pre & w & post & d & i & E & A & R1 & R2 & R3 & R4)]].
      * apply existsb_exists in X. destruct X as (i & I & X). exists [], v, l, dom, i. split; [reflexivity|]. split; [exact Ea|]. split; [exact G|]. split; [exact I|]. split; [lia|intros ? []].
      * exists (v :: pre), w, post, d, i. split; [rewrite E; reflexivity|]. split; [exact A|]. split; [exact R1|]. split; [exact R2|]. split; [exact R3|]. intros y [<-|Iy] Ay; [|apply R4; assumption]. exists dom.
        apply negb_true_iff in X. destruct (existsb (keeps exact field vars asg) dom) eqn:Y.
        -- apply existsb_exists in Y. destruct Y as (j & Ij & K). exists j. split; [exact G|]. split; [exact Ij|]. unfold keeps in K. destruct (excess exact field vars asg j); [reflexivity|discriminate].
        -- exfalso. assert (Z : forallb (fun i => negb (keeps exact field vars asg i)) dom = true); [|congruence]. apply forallb_forall. intros j Ij. destruct (keeps exact field vars asg j) eqn:K; [|reflexivity]. assert (W : existsb (keeps exact field vars asg) dom = true) by (apply existsb_exists; eauto). congruence.
    + intros (pre & w & post & d & i & E & A & R1 & R2 & R3 & R4). destruct pre as [|y pre]; cbn [app] in E.
      * left. assert (w = v) as -> by congruence. assert (d = dom) as -> by congruence. apply existsb_exists. exists i. split; [exact R2|lia].
      * right. assert (y = v) as -> by congruence. split.
        -- destruct (R4 v ltac:(left; reflexivity) Ea) as (d' & j & Gd & Ij & K). assert (d' = dom) as -> by congruence. apply negb_true_iff. destruct (forallb _ dom) eqn:F; [|reflexivity]. rewrite forallb_forall in F. specialize (F j Ij). unfold keeps in F. rewrite K in F. discriminate.
        -- exists pre, w, post, d, i. split; [congruence|]. split; [exact A|]. split; [exact R1|]. split; [exact R2|]. split; [exact R3|]. intros z Iz Az; apply R4; [right|]; assumption. Qed.
Theorem C53_forward_check_partial : forall exact field vars doms asg fc, NoDup vars -> proper_domains vars doms asg ->
  (forall e, constraint_call exact field vars doms asg fc = Err e ->
     e = ValueError /\ fc = true /\ exists v dom i, In v vars /\ dget asg v = None /\ dget doms v = Some dom /\ In i dom /\ (2 <= length (excess exact field vars asg i))%nat) /\
  (* exactly when *)
  (constraint_call exact field vars doms asg fc = Err ValueError <->
     fc = true /\
     (forall k, (0 < number field vars asg k -> dmem exact k = true) /\ (dmem exact k = true -> number field vars asg k <= required exact k)) /\
     exists pre v post dom i, vars = pre ++ v :: post /\ dget asg v = None /\ dget doms v = Some dom /\ In i dom /\ (2 <= length (excess exact field vars asg i))%nat /\
       forall w, In w pre -> dget asg w = None -> exists d j, dget doms w = Some d /\ In j d /\ excess exact field vars asg j = []) /\
  (* never for fields with one value *)
  ((forall i, (length (field i) <= 1)%nat) -> exists r, constraint_call exact field vars doms asg fc = Ok r).
Proof. intros exact field vars doms asg fc N P. pose proof (call_spec exact field vars doms asg fc N P) as H. pose proof (bad_before_iff exact field vars asg vars doms (proj2 P)) as BI.
  assert (Few : (forall i, (length (field i) <= 1)%nat) -> forall i, (length (excess exact field vars asg i) <= 1)%nat).
  { intros F i. unfold excess. destruct (x_ignore i); [cbn; lia|]. specialize (F i). destruct (field i) as [|a [|]]; cbn [filter] in *; [cbn; lia|destruct (exceeds _ _ _ _ _); cbn; lia|cbn in F; lia]. }
  destruct (constraint_call exact field vars doms asg fc) as [[d b]|e].
  - split; [discriminate|]. split; [|intros _; eauto]. split; [discriminate|]. intros (-> & Cap & B). exfalso. apply BI in B. destruct H as ([(k & O)|H] & _).
    + destruct (Cap k) as [C1 C2]. destruct O as [[O1 O2]|[O1 O2]]; [rewrite (C1 O1) in O2; discriminate|specialize (C2 O1); lia].
    + assert (X : bad_before exact field vars asg vars doms = false); [|congruence]. apply H. split; [reflexivity|]. intros C. apply BI in B. destruct B as (pre & v & post & dom & i & E & A & _). apply (C v); [rewrite E; apply in_or_app; right; left; reflexivity|exact A].
  - destruct H as (-> & -> & NC & NO & B). split; [|split].
    + intros e E. assert (e = ValueError) as -> by congruence. split; [reflexivity|]. split; [reflexivity|]. apply BI in B. destruct B as (pre & v & post & dom & i & -> & A & G & I & X & _). exists v, dom, i. split; [apply in_or_app; right; left; reflexivity|auto].
    + split; [intros _|reflexivity]. split; [reflexivity|]. split; [|apply BI, B]. intros k. split.
      * intros O. destruct (dmem exact k) eqn:M; [reflexivity|]. exfalso. apply NO. exists k. left. auto.
      * intros O. destruct (Z_le_gt_dec (number field vars asg k) (required exact k)) as [L|L]; [exact L|]. exfalso. apply NO. exists k. right. split; [exact O|lia].
    + intros F. exfalso. apply BI in B. destruct B as (pre & v & post & dom & i & _ & _ & _ & _ & X & _). specialize (Few F i). lia. Qed.
Print Assumptions C53_forward_check_partial.
Example C53_example : constraint_call [(1, 0); (2, 5)] x_stores [0] [(0, [inst 1 false [1; 2]; inst 2 false [2]])] [] true = Ok ([(0, [inst 2 false [2]])], true) /\
  constraint_call [(1, 0); (2, 5)] x_stores [0] [(0, [inst 1 false [1; 1]; inst 2 false [2]])] [] true = Err ValueError.
Proof. vm_compute. auto. Qed.

(** C75.  The constraints are made from the metadata of the original program. *)
Lemma count_kept (f : xinst -> list Z) (g : dinst -> list Z) original : (forall o, f o = g (x_d o)) ->
  flat_map (fun o => if x_ignore o then [] else f o) original = flat_map g (kept (map x_d original)).
Proof. intros E. unfold kept. induction original as [|o l IH]; [reflexivity|]. cbn [map flat_map filter]. unfold x_ignore at 1. destruct (d_ignore (x_d o)); cbn [negb flat_map app]; rewrite IH; [reflexivity|]. rewrite E. reflexivity. Qed.
Lemma map_flat {A} (f : A -> Z) l : flat_map (fun a => [f a]) l = map f l.
Proof. induction l as [|a l IH]; [reflexivity|]. cbn. rewrite IH. reflexivity. Qed.
Lemma required_counts original k :
  required (n_cond (counts_of original)) k = Z.of_nat (count_occ Z.eq_dec (flat_map (fun o => if x_ignore o then [] else [x_cond o]) original) k) /\
  required (n_instr (counts_of original)) k = Z.of_nat (count_occ Z.eq_dec (flat_map (fun o => if x_ignore o then [] else [x_op o]) original) k) /\
  required (n_stor (counts_of original)) k = Z.of_nat (count_occ Z.eq_dec (flat_map (fun o => if x_ignore o then [] else x_stores o) original) k).
Proof. pose proof (C34_counts [map x_d original] k) as (A & B & C). cbn [fold_left concat] in A, B, C. rewrite app_nil_r in *. unfold required, counts_of. cbn [n_cond n_instr n_stor]. rewrite A, B, C.
  rewrite (count_kept (fun o => [x_cond o]) (fun d => [d_cond d])), (count_kept (fun o => [x_op o]) (fun d => [d_op d])), (count_kept x_stores d_used) by reflexivity. rewrite !map_flat, !MetaProofs.count_occ_map. unfold entry_for, how_many, occurrences.
  repeat split; match goal with |- match (if ?x =? 0 then _ else _) with _ => _ end = _ => destruct (Z.eqb_spec x 0); lia end. Qed.
Lemma number_original f vars asg original k : (forall c o, same_fields c o -> f c = f o) ->
  NoDup (map x_addr original) -> NoDup vars -> (forall v, In v vars -> In v (map x_addr original)) ->
  (forall o, In o original -> x_ignore o = false -> In (x_addr o) vars) ->
  (forall o, In o original -> In (x_addr o) vars -> exists c, dget asg (x_addr o) = Some c /\ same_fields c o) ->
  number f vars asg k = Z.of_nat (count_occ Z.eq_dec (flat_map (fun o => if x_ignore o then [] else f o) original) k).
Proof. intros Ff N Nv Iv Cov As. unfold number. f_equal. unfold assigned_fields.
  set (F := fun v => match dget asg v with Some i => if x_ignore i then [] else f i | None => [] end).
  assert (E : flat_map F (map x_addr (filter (fun o => zmem (x_addr o) vars) original)) = flat_map (fun o => if x_ignore o then [] else f o) original).
  { clear N. induction original as [|o l IH]; [reflexivity|]. cbn [filter flat_map]. assert (IHl : flat_map F (map x_addr (filter (fun o => zmem (x_addr o) vars) l)) = flat_map (fun o => if x_ignore o then [] else f o) l).
    { clear IH. assert (Cov' : forall o, In o l -> x_ignore o = false -> In (x_addr o) vars) by (intros; apply Cov; [right|]; assumption). assert (As' : forall o, In o l -> In (x_addr o) vars -> exists c, dget asg (x_addr o) = Some c /\ same_fields c o) by (intros; apply As; [right|]; assumption). clear - Ff Cov' As' F.
      induction l as [|o l IH]; [reflexivity|]. cbn [filter flat_map]. destruct (zmem (x_addr o) vars) eqn:Z.
      - apply zmem_in in Z. destruct (As' o ltac:(left; reflexivity) Z) as (c & G & S). cbn [map flat_map]. unfold F at 1. rewrite G. destruct S as (S1 & S). rewrite S1, (Ff c o (conj S1 S)), IH; [reflexivity| |]; intros; [apply Cov'|apply As']; try (right; assumption); assumption.
      - destruct (x_ignore o) eqn:Ig; [cbn [app]; apply IH; intros; [apply Cov'|apply As']; try (right; assumption); assumption|]. exfalso. apply zmem_false in Z. apply Z, Cov'; [left; reflexivity|exact Ig]. }
    destruct (zmem (x_addr o) vars) eqn:Z.
    - apply zmem_in in Z. destruct (As o ltac:(left; reflexivity) Z) as (c & G & S). cbn [map flat_map]. unfold F at 1. rewrite G. destruct S as (S1 & S). rewrite S1, (Ff c o (conj S1 S)), IHl. reflexivity.
    - destruct (x_ignore o) eqn:Ig; [exact IHl|]. exfalso. apply zmem_false in Z. apply Z, Cov; [left; reflexivity|exact Ig]. }
  rewrite <- E. assert (P : Permutation vars (map x_addr (filter (fun o => zmem (x_addr o) vars) original))).
  { apply NoDup_Permutation; [exact Nv| |].
    - clear - N. induction original as [|o l IH]; [constructor|]. cbn [map filter] in *. inversion N as [|? ? N1 N2]; subst. destruct (zmem (x_addr o) vars); cbn [map]; [constructor; [|apply IH, N2]|apply IH, N2]. intros I. apply N1. apply in_map_iff in I. destruct I as (y & Ey & I). apply filter_In in I. rewrite <- Ey. apply in_map, I.
    - intros v. split.
      + intros I. specialize (Iv v I). apply in_map_iff in Iv. destruct Iv as (o & Eo & Io). apply in_map_iff. exists o. split; [exact Eo|]. apply filter_In. split; [exact Io|]. apply zmem_in. rewrite Eo. exact I.
      + intros I. apply in_map_iff in I. destruct I as (o & Eo & Io). apply filter_In in Io. destruct Io as [_ Z]. apply zmem_in in Z. rewrite <- Eo. exact Z. }
  apply perm_count, Permutation_flat_map, P. Qed.
Theorem C75_original_accepted : forall program original asg,
  candidates_for program original -> offers program original ->
  let '(doms, constraints) := problem program (counts_of original) in
  (* the original, or candidates printed like it, assigned to every variable *)
  (forall o, In o original -> In (x_addr o) (dkeys doms) -> exists c, dget asg (x_addr o) = Some c /\ same_fields c o) ->
  forall exact field fc, In (exact, field) constraints -> constraint_call exact field (dkeys doms) doms asg fc = Ok (doms, true).
Proof. intros program original asg (N1 & N2 & K & _) Of. unfold problem. intros As exact field fc I. set (vars := dkeys (filter _ program)) in *.
  assert (Nv : NoDup vars). { unfold vars, dkeys. clear - N2. induction program as [|[a pa] l IH]; [constructor|]. cbn [filter snd]. inversion N2 as [|? ? A B]; subst. destruct (0 <? length pa)%nat; [|apply IH, B]. cbn [map fst]. constructor; [|apply IH, B]. intros X. apply A. apply in_map_iff in X. destruct X as ([a' v'] & E & X). apply filter_In in X. cbn [fst] in E. subst a'. change a with (fst (a, v')). apply in_map, X. }
  assert (Iv : forall v, In v vars -> In v (map x_addr original)). { intros v Hv. apply K. unfold vars, dkeys in Hv. apply in_map_iff in Hv. destruct Hv as (kv & E & X). apply filter_In in X. rewrite <- E. apply in_map, X. }
  assert (Cov : forall o, In o original -> x_ignore o = false -> In (x_addr o) vars). { intros o Io Ig. destruct (Of o Io Ig) as (pa & c & G & Ic & _). unfold vars, dkeys. change (x_addr o) with (fst (x_addr o, pa)). apply in_map, filter_In. split; [apply dget_in, G|]. cbn [snd]. destruct pa; [destruct Ic|reflexivity]. }
  assert (C : complete vars asg). { intros v Hv X. specialize (Iv v Hv). apply in_map_iff in Iv. destruct Iv as (o & Eo & Io). subst v. destruct (As o Io Hv) as (c & G & _). congruence. }
  assert (S : forall k, number field vars asg k = required exact k).
  { intros k. destruct (required_counts original k) as (R1 & R2 & R3). destruct I as [E|[E|[E|[]]]]; apply pair_equal_spec in E; destruct E as [<- <-]; [rewrite R1|rewrite R2|rewrite R3]; apply number_original; try assumption; intros c o (S1 & S2 & S3 & S4); congruence. }
  destruct (C51_complete exact field vars (filter (fun kv => (0 <? length (snd kv))%nat) program) asg fc Nv C) as (b & E & B). rewrite E. rewrite (proj2 B S). reflexivity. Qed.
Print Assumptions C75_original_accepted.
Definition at_address (a id op : Z) (ignored : bool) (stores : list Z) : xinst := mkX (mkD id a ignored 14 op stores [] [] [] [] false KOther None) id stores id.
Example C75_example : let o1 := at_address 0 1 1 false [1; 2] in let o2 := at_address 4 2 1 false [2] in let o3 := at_address 8 3 9 true [9] in
  let p := [(0, [at_address 0 7 3 false [1]; o1]); (4, [o2; at_address 4 8 1 false [1]]); (8, [])] in
  let m := counts_of [o1; o2; o3] in
  map (fun c => constraint_call (fst c) (snd c) [0; 4] [] [(0, o1); (4, o2)] true) (snd (problem p m)) = [Ok ([], true); Ok ([], true); Ok ([], true)] /\
  map (fun c => constraint_call (fst c) (snd c) [0; 4] [] [(0, at_address 0 7 3 false [1]); (4, o2)] true) (snd (problem p m)) = [Ok ([], true); Ok ([], false); Ok ([], false)].
Proof. vm_compute. auto. Qed.
