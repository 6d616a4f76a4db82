(** Lemmas about the removal of bad candidates and the pass loop. *)
From Verif Require Import ListLemmas RecModel RecSpec RecProofs.
From Coq Require Import ZifyBool ZifyNat Lqa.

Lemma pop_at_app {A} (done : list A) c rest : pop_at (done ++ c :: rest) (length done) = done ++ rest.
Proof. unfold pop_at. rewrite firstn_app, Nat.sub_diag, firstn_all. cbn [firstn]. rewrite app_nil_r. f_equal.
  rewrite skipn_app, skipn_all2 by lia. replace (S (length done) - length done)%nat with 1%nat by lia. reflexivity. Qed.
Lemma nth_error_mid {A} (done : list A) c rest : nth_error (done ++ c :: rest) (length done) = Some c.
Proof. rewrite nth_error_app2, Nat.sub_diag by lia. reflexivity. Qed.

Lemma subseq_refl {A} (l : list A) : subseq l l.
Proof. induction l; constructor; assumption. Qed.
Lemma subseq_trans {A} (l1 l2 : list A) : subseq l1 l2 -> forall l3, subseq l2 l3 -> subseq l1 l3.
Proof. intros H l3 H'. revert l1 H. induction H' as [|a l2 l3 H' IH|a l2 l3 H' IH]; intros l1 H; [exact H| |constructor; apply IH, H].
  inversion H; subst; [apply sub_keep, IH; assumption|apply sub_drop, IH; assumption]. Qed.
Lemma subseq_length {A} (l1 l2 : list A) : subseq l1 l2 -> (length l1 <= length l2)%nat.
Proof. induction 1; cbn [length]; lia. Qed.
Lemma subseq_same {A} (l1 l2 : list A) : subseq l1 l2 -> length l1 = length l2 -> l1 = l2.
Proof. induction 1 as [|a l1 l2 H IH|a l1 l2 H IH]; cbn [length]; intros E; [reflexivity|f_equal; apply IH; lia|]. apply subseq_length in H. lia. Qed.
Lemma subseq_map {A B} (f : A -> B) l1 l2 : subseq l1 l2 -> subseq (map f l1) (map f l2).
Proof. induction 1; cbn [map]; constructor; assumption. Qed.
Lemma subseq_filter {A} (f : A -> bool) l : subseq (filter f l) l.
Proof. induction l as [|a l IH]; cbn [filter]; [constructor|]. destruct (f a); constructor; exact IH. Qed.
Lemma subseq_in {A} (l1 l2 : list A) : subseq l1 l2 -> forall x, In x l1 -> In x l2.
Proof. induction 1 as [|a l1 l2 H IH|a l1 l2 H IH]; intros x Hx; [exact Hx|destruct Hx as [->|Hx]; [left; reflexivity|right; auto]|right; auto]. Qed.

Section Remove.
Context {A : Type} (sc : A -> result Q).

(** Whatever the scores: only removals, and no fuel runs out. *)
Lemma loop1_shape : forall rest done fuel ones less, (length rest < fuel)%nat ->
  (exists r' o l, remove_loop1 sc fuel (done ++ rest) (length done) ones less = Ok (done ++ r', o, l) /\ subseq r' rest) \/
  (exists c e, In c rest /\ sc c = Err e /\ remove_loop1 sc fuel (done ++ rest) (length done) ones less = Err e).
Proof. induction rest as [|c rest IH]; intros done fuel ones less F; (destruct fuel as [|fuel]; [cbn in F; lia|]); cbn [remove_loop1].
  - rewrite app_nil_r. replace (nth_error done (length done)) with (@None A) by (symmetry; apply nth_error_None; lia). left. exists [], ones, less. rewrite app_nil_r. split; [reflexivity|constructor].
  - rewrite nth_error_mid. destruct (sc c) as [q|e] eqn:E; cbn [bind]; [|right; exists c, e; cbn; auto]. cbn [length] in F.
    assert (Keep : forall o l, (exists r' o' l', remove_loop1 sc fuel (done ++ c :: rest) (S (length done)) o l = Ok (done ++ r', o', l') /\ subseq r' (c :: rest)) \/
       (exists c' e, In c' (c :: rest) /\ sc c' = Err e /\ remove_loop1 sc fuel (done ++ c :: rest) (S (length done)) o l = Err e)).
    { intros o l. replace (done ++ c :: rest) with ((done ++ [c]) ++ rest) by (rewrite <- app_assoc; reflexivity). replace (S (length done)) with (length (done ++ [c])) by (rewrite app_length; cbn; lia).
      destruct (IH (done ++ [c]) fuel o l) as [(r' & o' & l' & E1 & E2)|(c' & e & E1 & E2 & E3)]; [lia| |].
      - left. exists (c :: r'), o', l'. rewrite E1, <- app_assoc. split; [reflexivity|constructor; exact E2].
      - right. exists c', e. split; [right; exact E1|auto]. }
    assert (Drop : forall o l, (exists r' o' l', remove_loop1 sc fuel (pop_at (done ++ c :: rest) (length done)) (length done) o l = Ok (done ++ r', o', l') /\ subseq r' (c :: rest)) \/
       (exists c' e, In c' (c :: rest) /\ sc c' = Err e /\ remove_loop1 sc fuel (pop_at (done ++ c :: rest) (length done)) (length done) o l = Err e)).
    { intros o l. rewrite pop_at_app. destruct (IH done fuel o l) as [(r' & o' & l' & E1 & E2)|(c' & e & E1 & E2 & E3)]; [lia| |].
      - left. exists r', o', l'. split; [exact E1|constructor; exact E2].
      - right. exists c', e. split; [right; exact E1|auto]. }
    destruct (Qeq_bool q 1); [apply Keep|]. destruct (Qeq_bool q 0); [apply Drop|]. destruct (0 <? ones); [apply Drop|apply Keep]. Qed.

Lemma loop2_shape : forall rest done fuel ones, (length rest < fuel)%nat ->
  (exists r', remove_loop2 sc fuel (done ++ rest) (length done) ones = Ok (done ++ r') /\ subseq r' rest) \/
  (exists c e, In c rest /\ sc c = Err e /\ remove_loop2 sc fuel (done ++ rest) (length done) ones = Err e).
Proof. induction rest as [|c rest IH]; intros done fuel ones F; (destruct fuel as [|fuel]; [cbn in F; lia|]); cbn [remove_loop2].
  - rewrite app_nil_r. replace (nth_error done (length done)) with (@None A) by (symmetry; apply nth_error_None; lia). left. exists []. rewrite app_nil_r. split; [reflexivity|constructor].
  - rewrite nth_error_mid. destruct (sc c) as [q|e] eqn:E; cbn [bind]; [|right; exists c, e; cbn; auto]. cbn [length] in F. destruct (qlt q 1 && (0 <? ones)).
    + rewrite pop_at_app. destruct (IH done fuel ones) as [(r' & E1 & E2)|(c' & e & E1 & E2 & E3)]; [lia| |].
      * left. exists r'. split; [exact E1|constructor; exact E2].
      * right. exists c', e. split; [right; exact E1|auto].
    + replace (done ++ c :: rest) with ((done ++ [c]) ++ rest) by (rewrite <- app_assoc; reflexivity). replace (S (length done)) with (length (done ++ [c])) by (rewrite app_length; cbn; lia).
      destruct (IH (done ++ [c]) fuel ones) as [(r' & E1 & E2)|(c' & e & E1 & E2 & E3)]; [lia| |].
      * left. exists (c :: r'). rewrite E1, <- app_assoc. split; [reflexivity|constructor; exact E2].
      * right. exists c', e. split; [right; exact E1|auto]. Qed.

Lemma remove_bad_shape v :
  (exists v' n, remove_bad sc v = Ok (v', n) /\ subseq v' v /\ n = Z.of_nat (length v) - Z.of_nat (length v')) \/
  (exists c e, In c v /\ sc c = Err e /\ remove_bad sc v = Err e).
Proof. unfold remove_bad. destruct (loop1_shape v [] (S (length v)) 0 0) as [(v1 & o & l & E & S1)|(c & e & I & E1 & E)]; [lia| |].
  - cbn [app length] in E. rewrite E. cbn [bind]. destruct (0 <? l).
    + destruct (loop2_shape v1 [] (S (length v1)) o) as [(v2 & E2 & S2)|(c & e & I & E1 & E2)]; [lia| |]; cbn [app length] in E2; rewrite E2; cbn [bind].
      * left. eexists _, _. split; [reflexivity|]. split; [eapply subseq_trans; eauto|reflexivity].
      * right. exists c, e. split; [eapply subseq_in; eauto|auto].
    + left. eexists _, _. split; [reflexivity|]. split; [exact S1|reflexivity].
  - cbn [app length] in E. rewrite E. right. exists c, e. auto. Qed.

(** With scores in [0, 1]. *)
Context (val : A -> Q).
Definition is1 (c : A) : bool := Qeq_bool (val c) 1.
Definition is0 (c : A) : bool := Qeq_bool (val c) 0.

Fixpoint sweep (one : bool) (l : list A) : list A :=
  match l with
  | [] => []
  | c :: l' => if is1 c then c :: sweep true l' else if is0 c then sweep one l' else if one then sweep one l' else c :: sweep one l'
  end.

Lemma loop1_sweep : forall rest done fuel ones less, (length rest < fuel)%nat -> (forall c, In c rest -> sc c = Ok (val c)) -> 0 <= ones ->
  exists o l, remove_loop1 sc fuel (done ++ rest) (length done) ones less = Ok (done ++ sweep (0 <? ones) rest, o, l) /\
    o = ones + Z.of_nat (length (filter is1 rest)) /\ l = less + Z.of_nat (length (filter (fun c => negb (is1 c) && negb (is0 c)) rest)).
Proof. induction rest as [|c rest IH]; intros done fuel ones less F H P; (destruct fuel as [|fuel]; [cbn in F; lia|]); cbn [remove_loop1].
  - rewrite app_nil_r. replace (nth_error done (length done)) with (@None A) by (symmetry; apply nth_error_None; lia). exists ones, less. cbn [sweep filter length]. rewrite app_nil_r. split; [reflexivity|lia].
  - rewrite nth_error_mid. rewrite (H c) by (left; reflexivity). cbn [bind]. cbn [length] in F. cbn [sweep filter]. fold (is1 c). fold (is0 c).
    assert (H' : forall c, In c rest -> sc c = Ok (val c)) by (intros; apply H; right; assumption).
    assert (Keep : forall o0 l0, 0 <= o0 -> exists o l, remove_loop1 sc fuel (done ++ c :: rest) (S (length done)) o0 l0 = Ok (done ++ c :: sweep (0 <? o0) rest, o, l) /\
       o = o0 + Z.of_nat (length (filter is1 rest)) /\ l = l0 + Z.of_nat (length (filter (fun c => negb (is1 c) && negb (is0 c)) rest))).
    { intros o0 l0 P0. replace (done ++ c :: rest) with ((done ++ [c]) ++ rest) by (rewrite <- app_assoc; reflexivity). replace (S (length done)) with (length (done ++ [c])) by (rewrite app_length; cbn; lia).
      destruct (IH (done ++ [c]) fuel o0 l0 ltac:(lia) H' P0) as (o & l & E & Eo & El). exists o, l. rewrite E, <- app_assoc. auto. }
    destruct (is1 c) eqn:E1; cbn [negb andb].
    + destruct (Keep (ones + 1) less) as (o & l & E & Eo & El); [lia|]. exists o, l. replace (0 <? ones + 1) with true in E by lia. split; [exact E|]. cbn [length]. lia.
    + destruct (is0 c) eqn:E0; cbn [negb].
      * rewrite pop_at_app. destruct (IH done fuel ones less ltac:(lia) H' P) as (o & l & E & Eo & El). exists o, l. auto.
      * destruct (0 <? ones) eqn:Eo1.
        -- rewrite pop_at_app. destruct (IH done fuel ones (less + 1) ltac:(lia) H' P) as (o & l & E & Eo & El). rewrite Eo1 in E. exists o, l. split; [exact E|]. cbn [length]. lia.
        -- destruct (Keep ones (less + 1)) as (o & l & E & Eo & El); [lia|]. rewrite Eo1 in E. exists o, l. split; [exact E|]. cbn [length]. lia. Qed.

Lemma loop2_filter : forall rest done fuel ones, (length rest < fuel)%nat -> (forall c, In c rest -> sc c = Ok (val c)) ->
  remove_loop2 sc fuel (done ++ rest) (length done) ones = Ok (done ++ filter (fun c => negb (qlt (val c) 1 && (0 <? ones))) rest).
Proof. induction rest as [|c rest IH]; intros done fuel ones F H; (destruct fuel as [|fuel]; [cbn in F; lia|]); cbn [remove_loop2].
  - rewrite app_nil_r. replace (nth_error done (length done)) with (@None A) by (symmetry; apply nth_error_None; lia). cbn [filter]. rewrite app_nil_r. reflexivity.
  - rewrite nth_error_mid. rewrite (H c) by (left; reflexivity). cbn [bind]. cbn [length] in F. cbn [filter]. destruct (qlt (val c) 1 && (0 <? ones)); cbn [negb].
    + rewrite pop_at_app. apply IH; [lia|intros; apply H; right; assumption].
    + replace (done ++ c :: rest) with ((done ++ [c]) ++ rest) by (rewrite <- app_assoc; reflexivity). replace (S (length done)) with (length (done ++ [c])) by (rewrite app_length; cbn; lia).
      rewrite IH by (try lia; intros; apply H; right; assumption). rewrite <- app_assoc. reflexivity. Qed.

Lemma remove_bad_value v : (forall c, In c v -> sc c = Ok (val c) /\ prob (val c)) ->
  exists v', remove_bad sc v = Ok (v', Z.of_nat (length v) - Z.of_nat (length v')) /\
    v' = if existsb is1 v then filter is1 v else filter (fun c => negb (is0 c)) v.
Proof. intros H. unfold remove_bad. destruct (loop1_sweep v [] (S (length v)) 0 0) as (o & l & E & Eo & El); [lia|intros; apply H; assumption|lia|].
  cbn [app length] in E. rewrite E. cbn [bind]. cbn [Z.ltb] in *. change (0 <? 0) with false in *.
  set (v1 := sweep false v) in *.
  assert (I1 : forall c, In c v1 -> sc c = Ok (val c)).
  { intros c Hc. apply H. assert (G : forall b l, subseq (sweep b l) l). { clear. intros b l. revert b. induction l as [|c l IH]; intros b; cbn [sweep]; [constructor|]. destruct (is1 c); [constructor; apply IH|]. destruct (is0 c); [constructor; apply IH|]. destruct b; constructor; apply IH. }
    eapply subseq_in; [apply G|exact Hc]. }
  assert (E2 : (if 0 <? l then remove_loop2 sc (S (length v1)) v1 0 o else Ok v1) = Ok (if 0 <? l then filter (fun c => negb (qlt (val c) 1 && (0 <? o))) v1 else v1)).
  { destruct (0 <? l); [|reflexivity]. pose proof (loop2_filter v1 [] (S (length v1)) o ltac:(lia) I1) as X. cbn [app length] in X. exact X. }
  rewrite E2. cbn [bind]. eexists. split; [reflexivity|]. cbn [Z.add] in *.
  assert (Ex : existsb is1 v = (0 <? o)).
  { rewrite Eo. clear. induction v as [|c v IH]; [reflexivity|]. cbn [existsb filter]. destruct (is1 c); cbn [orb length]; [lia|exact IH]. }
  rewrite Ex. assert (SF : filter is1 v1 = filter is1 v).
  { unfold v1. generalize false. clear. induction v as [|c v IH]; intros b; [reflexivity|]. cbn [sweep filter]. destruct (is1 c) eqn:E1; [cbn [filter]; rewrite E1, IH; reflexivity|]. destruct (is0 c); [apply IH|]. destruct b; [apply IH|]. cbn [filter]. rewrite E1. apply IH. }
  destruct (0 <? o) eqn:Eo0.
  - rewrite <- SF. destruct (0 <? l) eqn:El0.
    + apply filter_ext_in. intros c Hc. rewrite andb_true_r. pose proof (I1 c Hc) as Sc.
      assert (Pc : prob (val c)). { assert (G : In c v). { assert (G : forall b l, subseq (sweep b l) l). { clear. intros b l. revert b. induction l as [|c l IH]; intros b; cbn [sweep]; [constructor|]. destruct (is1 c); [constructor; apply IH|]. destruct (is0 c); [constructor; apply IH|]. destruct b; constructor; apply IH. } eapply subseq_in; [apply G|exact Hc]. } apply H, G. }
      unfold is1. destruct Pc. destruct (qlt_spec (val c) 1), (qeq_spec (val c) 1); try reflexivity; lra.
    + assert (N : filter (fun c => negb (is1 c) && negb (is0 c)) v = []) by (revert El; destruct (filter (fun c => negb (is1 c) && negb (is0 c)) v); intros El; [reflexivity|cbn [length] in El; lia]).
      unfold v1. clear - N. revert N. generalize false. induction v as [|c v IH]; intros b N; [reflexivity|]. cbn [filter sweep] in *.
      destruct (is1 c) eqn:E1; cbn [negb andb] in N; [cbn [filter]; rewrite E1; f_equal; apply IH, N|]. destruct (is0 c); cbn [negb] in N; [apply IH, N|discriminate].
  - assert (N : existsb is1 v = false) by congruence. assert (V1 : v1 = filter (fun c => negb (is0 c)) v).
    { unfold v1. clear - N. induction v as [|c v IH]; [reflexivity|]. cbn [existsb filter sweep] in *. destruct (is1 c); [discriminate|]. cbn [orb] in N. destruct (is0 c); cbn [negb]; [apply IH, N|f_equal; apply IH, N]. }
    destruct (0 <? l); [|exact V1]. rewrite V1. clear. assert (forall l : list A, filter (fun c => negb (qlt (val c) 1 && false)) l = l) as ->; [|reflexivity].
    intros l1. induction l1 as [|c l1 IH]; [reflexivity|]. cbn [filter]. rewrite andb_false_r. cbn [negb]. rewrite IH. reflexivity. Qed.
End Remove.

(** *** The pass loop *)
Definition total {A} (p : dict (list A)) : nat := fold_right (fun kv n => (length (snd kv) + n)%nat) 0%nat p.
Definition labels {A B} (id : A -> B) (p : dict (list A)) : dict (list B) := map (fun kv => (fst kv, map id (snd kv))) p.
Definition shrunk {B} (p p' : dict (list B)) : Prop := Forall2 (fun kv kv' => fst kv' = fst kv /\ subseq (snd kv') (snd kv)) p p'.

Lemma shrunk_refl {B} (p : dict (list B)) : shrunk p p.
Proof. induction p; constructor; [split; [reflexivity|apply subseq_refl]|assumption]. Qed.
Lemma shrunk_trans {B} (p q r : dict (list B)) : shrunk p q -> shrunk q r -> shrunk p r.
Proof. intros H. revert r. induction H as [|x y p q [E1 S1] H IH]; intros r H'; inversion H' as [|? z ? r' [E2 S2] H2]; subst; constructor; [split; [congruence|eapply subseq_trans; eauto]|apply IH; assumption]. Qed.
Lemma total_labels {A B} (id : A -> B) p : total (labels id p) = total p.
Proof. induction p as [|[k v] p IH]; [reflexivity|]. cbn. rewrite map_length. unfold total, labels in IH. rewrite IH. reflexivity. Qed.
Lemma shrunk_labels {A B} (id : A -> B) p p' : shrunk p p' -> shrunk (labels id p) (labels id p').
Proof. induction 1 as [|x y p q [E S] H IH]; cbn [labels map]; constructor; [cbn [fst snd]; split; [exact E|apply subseq_map, S]|exact IH]. Qed.

Lemma remove_all_shape {A} (sc : A -> result Q) p :
  (exists p' stable, remove_all sc p = Ok (p', stable) /\ shrunk p p' /\ (total p' <= total p)%nat /\ (stable = true -> p' = p) /\ (stable = false -> (total p' < total p)%nat)) \/
  (exists a c e, In c (match dget p a with Some l => l | None => [] end) /\ sc c = Err e /\ remove_all sc p = Err e) \/
  (exists kv c e, In kv p /\ In c (snd kv) /\ sc c = Err e /\ remove_all sc p = Err e).
Proof. induction p as [|[k v] p IH]; cbn [remove_all].
  - left. exists [], true. split; [reflexivity|]. split; [constructor|]. split; [lia|]. split; [reflexivity|discriminate].
  - destruct (remove_bad_shape sc v) as [(v' & n & E & S & En)|(c & e & I & E1 & E)]; rewrite E; cbn [bind].
    + destruct IH as [(p' & stable & E2 & S2 & T2 & St & Sf)|[(a & c & e & I & E1 & E2)|(kv & c & e & I & I' & E1 & E2)]].
      * rewrite E2. cbn [bind]. left. eexists _, _. split; [reflexivity|]. pose proof (subseq_length _ _ S) as L.
        split; [constructor; [split; [reflexivity|exact S]|exact S2]|]. cbn [total fold_right snd]. fold (total p') (total p). split; [lia|]. split.
        -- intros X. apply andb_true_iff in X. destruct X as [X1 X2]. rewrite (St X2). f_equal. f_equal. apply subseq_same; [exact S|]. lia.
        -- intros X. apply andb_false_iff in X. destruct X as [X|X]; [lia|specialize (Sf X); lia].
      * right; right. rewrite E2. destruct (dget p a) as [l|] eqn:G; [|destruct I]. exists (a, l), c, e. split; [right; apply dget_in, G|auto].
      * right; right. rewrite E2. exists kv, c, e. split; [right; exact I|auto].
    + right; right. exists (k, v), c, e. split; [left; reflexivity|auto]. Qed.

Definition no_fuel_error {A} (x : result A) : Prop := x <> Err OutOfFuel.

Lemma passes_spec {A B} (id : A -> B) (sc : A -> result Q) rec :
  (forall c, no_fuel_error (sc c)) -> (forall n p, no_fuel_error (rec n p)) ->
  (forall n p p', rec n p = Ok p' -> labels id p' = labels id p) ->
  forall fuel n p, (total p < fuel)%nat ->
    no_fuel_error (passes sc rec fuel n p) /\
    forall p' n', passes sc rec fuel n p = Ok (p', n') -> shrunk (labels id p) (labels id p') /\ (n <= n' <= n + total p)%nat.
Proof. intros Hs Hr Hl. induction fuel as [|fuel IH]; intros n p F; [lia|]. cbn [passes].
  destruct (rec n p) as [p1|e] eqn:E1; cbn [bind].
  - specialize (Hl _ _ _ E1). assert (T1 : total p1 = total p) by (rewrite <- (total_labels id p1), <- (total_labels id p), Hl; reflexivity).
    destruct (remove_all_shape sc p1) as [(p2 & st & E2 & S2 & T2 & St & Sf)|[(a & c & e & I & X1 & X2)|(kv & c & e & I & I' & X1 & X2)]].
    + rewrite E2. cbn [bind]. destruct st.
      * split; [discriminate|]. intros p' n' H. injection H as <- <-. rewrite <- Hl. split; [apply shrunk_labels, S2|lia].
      * specialize (Sf eq_refl). destruct (IH (S n) p2) as [A1 A2]; [lia|]. split; [exact A1|]. intros p' n' H. destruct (A2 p' n' H) as [A3 A4]. split; [|lia].
        rewrite <- Hl. eapply shrunk_trans; [apply shrunk_labels, S2|exact A3].
    + rewrite X2. cbn [bind]. split; [|discriminate]. intros Y. apply (Hs c). congruence.
    + rewrite X2. cbn [bind]. split; [|discriminate]. intros Y. apply (Hs c). congruence.
  - split; [|discriminate]. intros Y. apply (Hr n p). congruence. Qed.
