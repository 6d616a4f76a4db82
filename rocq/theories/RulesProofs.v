(** Lemmas about the scoring rules: counting. *)
From Verif Require Import ListLemmas FlipModel FlipProofs InstModel MetaModel MetaSpec MetaProofs RecModel RecSpec RecProofs RulesModel RulesSpec.
From Coq Require Import ZifyBool ZifyNat Permutation Lqa.

Lemma candidate_count_live l : candidate_count l = Z.of_nat (length (live l)).
Proof. unfold candidate_count, live. assert (G : forall n, fold_left (fun n c => if r_ignore c then n else n + 1) l n = n + Z.of_nat (length (filter (fun c => negb (r_ignore c)) l))).
  { induction l as [|c l IH]; intros n; cbn [fold_left filter]; [cbn [length]; lia|]. rewrite IH. destruct (r_ignore c); cbn [negb length]; lia. }
  rewrite G. lia. Qed.

Lemma resolved_count l : (candidate_count l =? 1) = resolved l.
Proof. unfold resolved. rewrite candidate_count_live. destruct (Nat.eqb_spec (length (live l)) 1); lia. Qed.

Lemma dget_map_keyed {A B} (g : Z -> A -> B) (d : dict A) k : dget (map (fun kv => (fst kv, g (fst kv) (snd kv))) d) k = option_map (g k) (dget d k).
Proof. induction d as [|[a x] d IH]; [reflexivity|]. cbn [map dget fst snd]. destruct (Z.eqb_spec k a); [subst; reflexivity|exact IH]. Qed.

Definition dec_step (d : dict Z) (v : Z) : result (dict Z) := let* n := dget_r d v in Ok (dset d v (n - 1)).
Lemma dec_fold vs : forall d, (forall v, In v vs -> dget d v <> None) -> exists d', foldM dec_step vs d = Ok d' /\
  forall v, dget d' v = option_map (fun n => n - Z.of_nat (count_occ Z.eq_dec vs v)) (dget d v).
Proof. induction vs as [|x vs IH]; intros d H; cbn [foldM].
  - exists d. split; [reflexivity|]. intros v. cbn [count_occ]. destruct (dget d v) as [n|]; cbn [option_map]; f_equal; lia.
  - unfold dec_step at 1, dget_r. destruct (dget d x) as [n|] eqn:E; [|destruct (H x (or_introl eq_refl) E)]. cbn [bind].
    destruct (IH (dset d x (n - 1))) as (d' & F & G).
    { intros v I. rewrite dget_dset. destruct (v =? x); [discriminate|]. apply H. right; exact I. }
    exists d'. split; [exact F|]. intros v. rewrite G, dget_dset. cbn [count_occ]. destruct (Z.eqb_spec v x) as [->|N].
    + rewrite E. cbn [option_map]. destruct (Z.eq_dec x x); [|congruence]. f_equal. lia.
    + destruct (Z.eq_dec x v); [congruence|]. reflexivity. Qed.

Lemma dec_fold_err vs : forall d v, In v vs -> dget d v = None -> foldM dec_step vs d = Err KeyError.
Proof. induction vs as [|x vs IH]; intros d v I E; [destruct I|]. cbn [foldM]. unfold dec_step at 1, dget_r. destruct (dget d x) as [n|] eqn:Ex; [|reflexivity]. cbn [bind].
  destruct I as [->|I]; [congruence|]. apply (IH _ v I). rewrite dget_dset. destruct (Z.eqb_spec v x); [congruence|exact E]. Qed.

Lemma times_app f v a b : times f v (a ++ b) = times f v a + times f v b.
Proof. unfold times. rewrite flat_map_app, count_occ_app. lia. Qed.
Lemma times_nonneg f v l : 0 <= times f v l. Proof. unfold times. lia. Qed.

Lemma inc_live f l : forall d v, dget (fold_left (fun d c => if r_ignore c then d else inc_keys d (f c)) l d) v =
  let n := times f v (live l) in if n =? 0 then dget d v else Some (dget0 d v + n).
Proof. assert (G : forall d, fold_left (fun d c => if r_ignore c then d else inc_keys d (f c)) l d = inc_keys d (flat_map f (live l))).
  { induction l as [|c l IH]; intros d; [reflexivity|]. cbn [fold_left live filter]. rewrite IH. destruct (r_ignore c); cbn [negb]; [reflexivity|]. cbn [flat_map]. rewrite inc_keys_app. reflexivity. }
  intros d v. rewrite G, inc_keys_get. reflexivity. Qed.

(** One address. *)
Lemma count_step_spec f rem can l : (resolved l = true -> exists c l', l = c :: l' /\ r_ignore c = false) ->
  (forall c v, live l = [c] -> In v (f c) -> dget rem v <> None) ->
  exists rem' can', count_step f (rem, can) l = Ok (rem', can') /\
    (forall v, dget rem' v = option_map (fun n => n - (if resolved l then times f v (live l) else 0)) (dget rem v)) /\
    (forall v, dget can' v = let n := if resolved l then 0 else times f v (live l) in if n =? 0 then dget can v else Some (dget0 can v + n)).
Proof. intros R K. unfold count_step. rewrite resolved_count. destruct (resolved l) eqn:E.
  - destruct (R eq_refl) as (c & l' & -> & I). cbn [nth_r nth_error bind]. rewrite I.
    assert (L : live (c :: l') = [c]). { unfold resolved in E. unfold live in *. cbn [filter] in *. rewrite I in *. cbn [negb length] in *. destruct (filter _ l'); [reflexivity|discriminate]. }
    destruct (dec_fold (f c) rem (fun v J => K c v L J)) as (rem' & F & G). unfold dec_step in F. rewrite F. cbn [bind]. exists rem', can. split; [reflexivity|]. split.
    + intros v. rewrite G, L. unfold times. cbn [flat_map]. rewrite app_nil_r. reflexivity.
    + intros v. reflexivity.
  - exists rem, (fold_left (fun d c => if r_ignore c then d else inc_keys d (f c)) l can). split; [reflexivity|]. split.
    + intros v. destruct (dget rem v); cbn [option_map]; f_equal; lia.
    + intros v. apply inc_live. Qed.

Lemma count_fold f vals : forall rem can, (forall l, In l vals -> resolved l = true -> exists c l', l = c :: l' /\ r_ignore c = false) ->
  (forall l c v, In l vals -> live l = [c] -> In v (f c) -> dget rem v <> None) ->
  exists rem' can', foldM (count_step f) vals (rem, can) = Ok (rem', can') /\
    (forall v, dget rem' v = option_map (fun n => n - times f v (flat_map live (filter resolved vals))) (dget rem v)) /\
    (forall v, dget can' v = let n := times f v (flat_map live (filter (fun l => negb (resolved l)) vals)) in if n =? 0 then dget can v else Some (dget0 can v + n)).
Proof. induction vals as [|l vals IH]; intros rem can R K.
  - exists rem, can. split; [reflexivity|]. split; intros v; [|reflexivity]. destruct (dget rem v) as [n|]; cbn [option_map]; [|reflexivity]. f_equal. unfold times. cbn. lia.
  - destruct (count_step_spec f rem can l (R l (or_introl eq_refl)) (fun c v => K l c v (or_introl eq_refl))) as (rem1 & can1 & S1 & G1 & C1).
    destruct (IH rem1 can1) as (rem' & can' & S2 & G2 & C2).
    { intros x I. apply R. right; exact I. }
    { intros x c v I L J. rewrite G1. specialize (K x c v (or_intror I) L J). destruct (dget rem v); [discriminate|congruence]. }
    exists rem', can'. split; [cbn [foldM]; rewrite S1; exact S2|]. split; intros v.
    + rewrite G2, G1. cbn [filter]. destruct (dget rem v) as [n|]; cbn [option_map]; [|reflexivity]. f_equal. destruct (resolved l); cbn [flat_map]; [rewrite times_app|]; lia.
    + rewrite C2. cbv zeta. unfold dget0 at 1. rewrite C1. cbv zeta. cbn [filter]. destruct (resolved l) eqn:E; cbn [negb flat_map].
      * replace (0 =? 0) with true by reflexivity. reflexivity.
      * rewrite times_app. pose proof (times_nonneg f v (live l)). pose proof (times_nonneg f v (flat_map live (filter (fun l => negb (resolved l)) vals))).
        set (x := times f v (live l)) in *. set (y := times f v (flat_map live _)) in *. destruct (Z.eqb_spec x 0), (Z.eqb_spec y 0), (Z.eqb_spec (x + y) 0); try lia; try reflexivity; f_equal; try lia.
        -- unfold dget0. lia. Qed.

Lemma remaining_spec f counts p : (forall l, In l (dvalues p) -> resolved l = true -> exists c l', l = c :: l' /\ r_ignore c = false) ->
  (forall l c v, In l (dvalues p) -> live l = [c] -> In v (f c) -> dget counts v <> None) ->
  exists sc, remaining_scores f counts p = Ok sc /\ forall v, match dget sc v with Some q => (q == chance f counts p v)%Q /\ dget counts v <> None | None => dget counts v = None end.
Proof. intros R K. unfold remaining_scores. destruct (count_fold f (dvalues p) counts [] R K) as (rem & can & F & G & C). 
  match goal with |- context [bind ?x _] => replace x with (Ok (rem, can)) by (symmetry; exact F) end. cbn [bind].
  eexists. split; [reflexivity|]. intros v.
  rewrite (dget_map_keyed (fun k n => match dget can k with Some m => (inject_Z n / inject_Z m)%Q | None => 0%Q end)), G. unfold chance, used_up, still_open.
  destruct (dget counts v) as [n|]; cbn [option_map]; [|reflexivity]. split; [|discriminate]. rewrite C. cbv zeta. cbn [dget dget0].
  destruct (Z.eqb_spec (times f v (flat_map live (filter (fun l => negb (resolved l)) (dvalues p)))) 0) as [E|E]; [reflexivity|]. unfold dget0. cbn [dget]. rewrite Z.add_0_l. reflexivity. Qed.

Lemma qsum_fold {A} (f : A -> Q) l : forall s, (fold_left (fun s v => s + f v) l s == s + qsum (map f l))%Q.
Proof. induction l as [|a l IH]; intros s; cbn [fold_left map qsum fold_right]; [lra|]. rewrite IH. unfold qsum. lra. Qed.
Lemma qsum_ext {A} (f g : A -> Q) l : (forall a, In a l -> (f a == g a)%Q) -> (qsum (map f l) == qsum (map g l))%Q.
Proof. unfold qsum. induction l as [|a l IH]; intros H; cbn [map fold_right]; [reflexivity|]. rewrite IH by (intros; apply H; right; assumption). rewrite (H a (or_introl eq_refl)). reflexivity. Qed.
Lemma qsum_div {A} (f : A -> Q) d l : (qsum (map (fun a => f a / d) l) == qsum (map f l) / d)%Q.
Proof. unfold qsum, Qdiv. induction l as [|a l IH]; cbn [map fold_right]; [ring|]. rewrite IH. ring. Qed.

Lemma count_score_spec sc f extra c counts p : (forall v, match dget sc v with Some q => (q == chance f counts p v)%Q /\ dget counts v <> None | None => dget counts v = None end) ->
  (count_score sc f extra c == extra c + mean_chance f counts p c)%Q.
Proof. intros G. unfold count_score, mean_chance.
  rewrite (qsum_fold (fun v => match dget sc v with Some q => (q / inject_Z (Z.of_nat (length (f c))))%Q | None => 0%Q end)).
  rewrite <- qsum_div. apply Qplus_comp; [reflexivity|]. apply qsum_ext. intros v _. specialize (G v). destruct (dget sc v).
  - destruct G as [G _]. rewrite G. reflexivity.
  - unfold chance. rewrite G. unfold Qdiv. ring. Qed.

(** Storing a score. *)
Lemma same_refl c : same_cand c c.
Proof. repeat split. intros k. unfold same_number. destruct (dget (r_scores c) k); [reflexivity|exact I]. Qed.

Lemma update_score_spec k c q : exists c' b, update_score k c q = (c', b) /\ got k q c c' /\ (b = true -> ~ same_cand c c') /\ (b = false -> c' = c).
Proof. unfold update_score. destruct (dget (r_scores c) k) as [old|] eqn:E; [destruct (qeq_spec q old) as [Q|Q]|].
  - exists c, false. split; [reflexivity|]. split.
    + split; [reflexivity|]. split; [reflexivity|]. split; [reflexivity|]. split; [|auto]. exists old. split; [exact E|]. symmetry. exact Q.
    + split; [discriminate|reflexivity].
  - eexists _, _. split; [reflexivity|]. split.
    + split; [reflexivity|]. split; [reflexivity|]. split; [reflexivity|]. cbn [with_scores r_scores]. split.
      * exists q. rewrite dget_dset, Z.eqb_refl. split; reflexivity.
      * intros k' N. apply dget_dset_other, N.
    + split; [|discriminate]. intros _ (_ & _ & _ & S). specialize (S k). cbn [with_scores r_scores] in S. rewrite E, dget_dset, Z.eqb_refl in S. cbn [same_number] in S. apply Q. symmetry. exact S.
  - eexists _, _. split; [reflexivity|]. split.
    + split; [reflexivity|]. split; [reflexivity|]. split; [reflexivity|]. cbn [with_scores r_scores]. split.
      * exists q. rewrite dget_dset, Z.eqb_refl. split; reflexivity.
      * intros k' N. apply dget_dset_other, N.
    + split; [|discriminate]. intros _ (_ & _ & _ & S). specialize (S k). cbn [with_scores r_scores] in S. rewrite E, dget_dset, Z.eqb_refl in S. exact S. Qed.

Lemma count_candidates_spec k sc f extra l : exists l' b, count_candidates k sc f extra l = (l', b) /\
  Forall2 (fun c c' => if r_ignore c then c' = c else got k (count_score sc f extra c) c c') l l' /\
  (b = true <-> ~ Forall2 same_cand l l').
Proof. induction l as [|c l (l' & b & E & F & B)]; cbn [count_candidates].
  - exists [], false. split; [reflexivity|]. split; [constructor|]. split; [discriminate|]. intros N. destruct N. constructor.
  - rewrite E. destruct (r_ignore c) eqn:I.
    + exists (c :: l'), (false || b). split; [reflexivity|]. split; [constructor; [rewrite I; reflexivity|exact F]|]. cbn [orb]. rewrite B. split; intros N S; apply N.
      * inversion S; assumption.
      * constructor; [apply same_refl|exact S].
    + destruct (update_score_spec k c (count_score sc f extra c)) as (c' & b' & U & G & H & H'). rewrite U. exists (c' :: l'), (b' || b). split; [reflexivity|]. split; [constructor; [rewrite I; exact G|exact F]|].
      destruct b'; cbn [orb].
      * split; [|reflexivity]. intros _ S. inversion S as [|? ? ? ? S1 S2]; subst. exact (H eq_refl S1).
      * rewrite B, (H' eq_refl). split; intros N S; apply N.
        -- inversion S; assumption.
        -- constructor; [apply same_refl|exact S]. Qed.
