(** Lemmas for C150 and C151: when a pass succeeds, what it looks at, and what it writes. *)
From Verif Require Import ListLemmas FlipModel FlipProofs InstModel MetaModel MetaSpec MetaProofs MetaProps RecModel RecSpec RecProofs RecProofs2 RecProofs3 RecProofs4 RemoveProofs RecProps OutcomeProps.
From Coq Require Import ZifyBool ZifyNat Permutation Sorted Lqa.

(** Both fail, or both succeed with related results. *)
Definition same_outcome {A B} (R : A -> B -> Prop) (x : result A) (y : result B) : Prop :=
  match x, y with Ok a, Ok b => R a b | Err _, Err _ => True | _, _ => False end.
(** The same addresses with the same candidates, in whatever order. *)
Definition alike {A} (p q : dict (list A)) : Prop :=
  forall a, match dget p a, dget q a with Some l, Some l' => Permutation l l' | None, None => True | _, _ => False end.

Lemma alike_refl {A} (p : dict (list A)) : alike p p.
Proof. intros a. destruct (dget p a); auto. Qed.
Lemma alike_sym {A} (p q : dict (list A)) : alike p q -> alike q p.
Proof. intros H a. specialize (H a). destruct (dget p a), (dget q a); auto using Permutation_sym. Qed.
Lemma alike_trans {A} (p q r : dict (list A)) : alike p q -> alike q r -> alike p r.
Proof. intros H K a. specialize (H a). specialize (K a). destruct (dget p a), (dget q a), (dget r a); auto; try contradiction. eapply Permutation_trans; eassumption. Qed.
Lemma alike_keys {A} (p q : dict (list A)) a : alike p q -> In a (dkeys p) <-> In a (dkeys q).
Proof. intros H. specialize (H a). rewrite !dget_some_in. destruct (dget p a), (dget q a); try contradiction; split; intros (x & X); try discriminate; eauto. Qed.

(** *** When a pass succeeds *)
Lemma walk_fails m col w fns prog lo hi e : forall addrs first fn p0, NoDup addrs -> (forall a, In a addrs -> In a (dkeys p0)) ->
  recover_addresses m col w fns prog lo hi fn first addrs p0 = Err e ->
  exists pre a post cs c, addrs = pre ++ a :: post /\ dget p0 a = Some cs /\ In c cs /\
    score_candidate m col w fns prog lo hi (fn_after fns fn (pre ++ [a])) a (match pre with [] => first | _ => false end) c = Err e.
Proof. induction addrs as [|x addrs IH]; intros first fn p0 N I H; [discriminate|]. cbn [recover_addresses] in H. inversion N as [|? ? Nx N']; subst.
  assert (Ix : In x (dkeys p0)) by (apply I; left; reflexivity). apply dget_some_in in Ix. destruct Ix as (cs & Ecs). unfold dget_r in H. rewrite Ecs in H. cbn [bind] in H.
  set (fn' := if dmem fns x then x else fn) in *. destruct (mapM (score_candidate m col w fns prog lo hi fn' x first) cs) as [cs'|e'] eqn:Em; cbn [bind] in H.
  - destruct (IH false fn' (dset p0 x cs') N') as (pre & a & post & cs1 & c & E & G & Ic & Es); [intros a Ha; rewrite dkeys_dset; unfold dmem; rewrite Ecs; apply I; right; exact Ha|exact H|].
    exists (x :: pre), a, post, cs1, c. split; [rewrite E; reflexivity|]. assert (a <> x) by (intros ->; apply Nx; rewrite E; apply in_app_iff; right; left; reflexivity). rewrite dget_dset_other in G by assumption. split; [exact G|]. split; [exact Ic|]. destruct pre; exact Es.
  - injection H as ->. destruct (mapM_error _ _ _ Em) as (c & Ic & Ec). exists [], x, addrs, cs, c. split; [reflexivity|]. split; [exact Ecs|]. split; [exact Ic|]. exact Ec. Qed.

(** What a pass does with one candidate, in terms of the whole program. *)
Definition step (m : pmodel) (col : collector) (fns : functions) (p : cprogram) (lo hi fn a : Z) (c : cand) : result cand :=
  score_candidate m col (collect_program (mkWith [] [] []) (plain p)) fns (plain p) lo hi fn a (a =? lo) c.
Definition bounds (p : cprogram) (lo hi : Z) : Prop := In lo (dkeys p) /\ (forall x, In x (dkeys p) -> lo <= x) /\ In hi (dkeys p) /\ (forall x, In x (dkeys p) -> x <= hi).
Lemma bounds_one p lo hi lo' hi' : bounds p lo hi -> bounds p lo' hi' -> lo = lo' /\ hi = hi'.
Proof. intros (A & B & C & D) (A' & B' & C' & D'). specialize (B _ A'). specialize (B' _ A). specialize (D _ C'). specialize (D' _ C). lia. Qed.

Lemma recover_ok m col fns p p' : NoDup (dkeys p) -> recover m col fns p = Ok p' -> exists lo hi, bounds p lo hi /\ dkeys p' = dkeys p /\
  forall a cs, dget p a = Some cs -> exists fn cs', current_function fns (dkeys p) a fn /\ dget p' a = Some cs' /\ Forall2 (fun c c' => step m col fns p lo hi fn a c = Ok c') cs cs'.
Proof. intros N H. destruct (recover_spec m col fns p N) as [B _]. destruct (B p' H) as (lo & hi & A1 & A2 & A3 & A4 & K & F). exists lo, hi. split; [repeat split; auto|]. split; [exact K|]. intros a cs G. destruct (F a cs G) as (fn & first & cs' & Cf & Hf & G' & F2).
  exists fn, cs'. split; [exact Cf|]. split; [exact G'|]. replace first with (a =? lo) in F2; [exact F2|]. destruct first; [apply Z.eqb_eq, Hf; reflexivity|]. apply Z.eqb_neq. intros X. apply Hf in X. discriminate. Qed.

Lemma recover_err m col fns p e lo hi : NoDup (dkeys p) -> bounds p lo hi -> recover m col fns p = Err e ->
  exists a cs c fn, dget p a = Some cs /\ In c cs /\ current_function fns (dkeys p) a fn /\ step m col fns p lo hi fn a c = Err e.
Proof. intros N Bd H. destruct (sorted_keys (dkeys p) N) as (N' & I & S). destruct (sort_by (fun a => a) (dkeys p)) as [|lo' rest] eqn:Es; [exfalso; apply (I lo), Bd|].
  rewrite (recover_unfold m col fns p lo' rest Es) in H. destruct (walk_fails _ _ _ _ _ _ _ _ _ _ _ _ N' (fun a Ha => proj1 (I a) Ha) H) as (pre & a & post & cs & c & E & G & Ic & Ec).
  assert (Lo : lo' = lo). { assert (In lo' (dkeys p)) by (apply I; left; reflexivity). assert (X : In lo (lo' :: rest)) by (apply I, Bd). destruct Bd as (_ & Bl & _). specialize (Bl lo' H0). destruct X as [X|X]; [exact X|]. inversion S as [|? ? _ F]; subst. rewrite Forall_forall in F. specialize (F lo X). lia. }
  assert (Hi : last (lo' :: rest) lo' = hi).
  { destruct (exists_last (l := lo' :: rest)) as (l & y & El); [discriminate|]. rewrite El, last_last. assert (Iy : In y (dkeys p)) by (apply I; rewrite El; apply in_app_iff; right; left; reflexivity).
    destruct Bd as (_ & _ & Bh & Bh'). specialize (Bh' y Iy). apply I in Bh. rewrite El in S, N', Bh. destruct (sorted_split l [] y S N') as (_ & X & _). apply in_app_iff in Bh. destruct Bh as [Bh|[Bh|[]]]; [specialize (X hi Bh)|]; lia. }
  exists a, cs, c, (fn_after fns lo' (pre ++ [a])). split; [exact G|]. split; [exact Ic|]. split; [exact (current_after fns p lo' rest pre a post N Es E)|]. unfold step. rewrite Hi, Lo in Ec. rewrite Lo.
  replace (a =? lo) with (match pre with [] => true | _ => false end); [exact Ec|]. rewrite Lo in E. destruct pre as [|y pre]; cbn [app] in E; [symmetry; apply Z.eqb_eq; congruence|]. symmetry. apply Z.eqb_neq. intros ->.
  rewrite Lo in N'. rewrite E in N'. assert (y = lo) as -> by congruence. inversion N' as [|? ? X _]; subst. apply X, in_app_iff. right; left; reflexivity. Qed.

Lemma bounds_exist p : NoDup (dkeys p) -> p <> [] -> exists lo hi, bounds p lo hi.
Proof. intros _ Ne. assert (Nk : dkeys p <> []) by (destruct p; [contradiction|discriminate]). clear Ne. unfold bounds. induction (dkeys p) as [|x l IH]; [contradiction|]. destruct l as [|y l].
  - exists x, x. split; [left; reflexivity|]. split; [intros z [<-|[]]; lia|]. split; [left; reflexivity|intros z [<-|[]]; lia].
  - destruct IH as (lo & hi & A & B & C & D); [discriminate|]. exists (Z.min x lo), (Z.max x hi). split; [destruct (Z.min_spec x lo) as [[_ ->]|[_ ->]]; [left; reflexivity|right; exact A]|].
    split; [intros z [<-|Hz]; [lia|specialize (B z Hz); lia]|]. split; [destruct (Z.max_spec x hi) as [[_ ->]|[_ ->]]; [right; exact C|left; reflexivity]|]. intros z [<-|Hz]; [lia|specialize (D z Hz); lia]. Qed.

Lemma alike_bounds (p q : cprogram) lo hi : alike p q -> bounds p lo hi -> bounds q lo hi.
Proof. intros H (A & B & C & D). split; [apply (alike_keys p q lo H), A|]. split; [intros x Hx; apply B, (alike_keys p q x H), Hx|]. split; [apply (alike_keys p q hi H), C|]. intros x Hx; apply D, (alike_keys p q x H), Hx. Qed.
Lemma current_keys fns l l' a fn : (forall x, In x l <-> In x l') -> current_function fns l a fn -> current_function fns l' a fn.
Proof. intros H [(A1 & A2 & A3 & A4)|(A1 & A2 & A3)]; [left|right].
  - split; [apply H, A1|]. split; [exact A2|]. split; [exact A3|]. intros x Hx. apply A4, H, Hx.
  - split; [intros x Hx; apply A1, H, Hx|]. split; [apply H, A2|]. intros x Hx. apply A3, H, Hx. Qed.

(** *** A pass looks at the candidates of an address as a collection *)
Lemma fold_perm {A B} (f : A -> B -> A) : (forall s x y, f (f s x) y = f (f s y) x) -> forall l l', Permutation l l' -> forall s, fold_left f l s = fold_left f l' s.
Proof. intros C l l' P. induction P; intros s; cbn [fold_left]; [reflexivity|apply IHP|rewrite C; reflexivity|rewrite IHP1; apply IHP2]. Qed.
Lemma filter_perm {A} (f : A -> bool) l l' : Permutation l l' -> Permutation (filter f l) (filter f l').
Proof. induction 1; cbn [filter]; [constructor|destruct (f x); auto|destruct (f x), (f y); auto using perm_swap, Permutation_refl|eapply Permutation_trans; eassumption]. Qed.
Lemma existsb_perm {A} (f : A -> bool) l l' : Permutation l l' -> existsb f l = existsb f l'.
Proof. induction 1; cbn [existsb]; [reflexivity|rewrite IHPermutation; reflexivity|destruct (f x), (f y); reflexivity|congruence]. Qed.
Lemma number_perm f l l' : Permutation l l' -> number f l = number f l'.
Proof. intros P. unfold number. rewrite (Permutation_length (filter_perm f _ _ P)). reflexivity. Qed.

Section View.
Context (P Q : dprogram) (H : alike P Q).
Lemma kept_alike a : Permutation (kept_here (dget P a)) (kept_here (dget Q a)).
Proof. specialize (H a). destruct (dget P a), (dget Q a); try contradiction; cbn [kept_here]; [apply filter_perm; exact H|constructor]. Qed.
Lemma length_alike a : match dget P a with Some l => Z.of_nat (length l) | None => 0 end = match dget Q a with Some l => Z.of_nat (length l) | None => 0 end.
Proof. specialize (H a). destruct (dget P a), (dget Q a); try contradiction; [rewrite (Permutation_length H)|]; reflexivity. Qed.
Lemma op_prob_alike k a regs : op_prob P k a regs = op_prob Q k a regs.
Proof. unfold op_prob, dget_r. pose proof (H a) as Ha. destruct (dget P a) as [l|], (dget Q a) as [l'|]; try contradiction; [|reflexivity]. cbn [bind].
  rewrite (fold_perm (fun (st : Z * Z * bool) i => let '(c, t, eq) := st in if d_ignore i then st else if same_kind (d_kind i) k then (c + 1, t + 1, eq || equal_registers (d_rwritten i) regs) else (c, t + 1, eq))) with (l' := l'); [reflexivity| |exact Ha].
  intros [[c t] e] x y. destruct (d_ignore x), (d_ignore y); try reflexivity; destruct (same_kind (d_kind x) k), (same_kind (d_kind y) k); try reflexivity. f_equal. rewrite <- !orb_assoc. f_equal. apply orb_comm. Qed.
Lemma walk_down_alike : forall addrs cb cp t p2, walk_down P addrs cb cp t p2 = walk_down Q addrs cb cp t p2.
Proof. induction addrs as [|a addrs IH]; intros cb cp t p2; [reflexivity|]. cbn [walk_down]. unfold dget_r. pose proof (H a) as Ha. destruct (dget P a) as [l|], (dget Q a) as [l'|]; try contradiction; [|reflexivity]. cbn [bind].
  rewrite (fold_perm (fun (st : Z * Z * Z) i => let '(cb, cp, t) := st in if d_ignore i then st else ((if d_branch i then cb + 1 else cb), (if same_kind (d_kind i) KPop then cp + 1 else cp), t + 1))) with (l' := l'); [|intros [[b c] t'] x y; destruct (d_ignore x), (d_ignore y), (d_branch x), (d_branch y), (same_kind (d_kind x) KPop), (same_kind (d_kind y) KPop); reflexivity|exact Ha].
  destruct (fold_left _ l' (cb, cp, t)) as [[cb' cp'] t']. cbv zeta. destruct (qlt 0 _); [reflexivity|apply IH]. Qed.
Lemma finish_alike m a s p1 p2 e : finish_push_pop m P a s p1 p2 e = finish_push_pop m Q a s p1 p2 e.
Proof. unfold finish_push_pop, dget_r. specialize (H a). destruct (dget P a) as [l|], (dget Q a) as [l'|]; try contradiction; [|reflexivity]. cbn [bind]. rewrite (Permutation_length H). reflexivity. Qed.
Lemma push_pop_alike m fns a fn i s : compute_push_pop m P fns a fn i s = compute_push_pop m Q fns a fn i s.
Proof. unfold compute_push_pop. cbv zeta. destruct (d_kind i); [| |reflexivity].
  - destruct (dget fns a) as [[f l]|]; [|apply finish_alike]. rewrite op_prob_alike, walk_down_alike. destruct (op_prob Q KPop l (d_rread i)) as [[p1 e]|]; cbn [bind]; [|reflexivity]. destruct (walk_down Q _ 0 0 0 0); cbn [bind]; [apply finish_alike|reflexivity].
  - rewrite op_prob_alike. destruct (op_prob Q KPush fn (d_rwritten i)) as [[p1 e]|]; cbn [bind]; [apply finish_alike|reflexivity]. Qed.
Lemma cfg_alike m a i s : compute_cfg m P a i s = compute_cfg m Q a i s.
Proof. unfold compute_cfg. cbv zeta. pose proof (kept_alike (a - 4)) as K1. pose proof (kept_alike (a + 4)) as K2. rewrite !(fun f => number_perm f _ _ K1), !(fun f => number_perm f _ _ K2), (Permutation_length K1), (Permutation_length K2), length_alike. reflexivity. Qed.
Lemma survive_alike r : forall addrs q, survive P r addrs q = survive Q r addrs q.
Proof. induction addrs as [|a addrs IH]; intros q; [reflexivity|]. cbn [survive]. pose proof (H a) as Ha. pose proof (kept_alike a) as K. destruct (dget P a) as [l|], (dget Q a) as [l'|]; try contradiction; [|apply IH].
  cbv zeta. rewrite (number_perm _ _ _ K), (Permutation_length K). destruct (0 <? _); [|apply IH]. destruct (Qeq_bool _ 1); [reflexivity|apply IH]. Qed.
Lemma distance_alike m col a : forall reads q, register_distance m col P a reads q = register_distance m col Q a reads q.
Proof. induction reads as [|r reads IH]; intros q; [reflexivity|]. cbn [register_distance]. destruct (match dget (min_dist col) r with Some _ => _ | None => _ end) as [x y]. rewrite survive_alike. destruct (Qle_bool 1 _); [reflexivity|apply IH]. Qed.
End View.

(** The counts of addresses do not depend on the order either. *)
Lemma filter_keys {A} (f : A -> bool) (d : dict A) : NoDup (dkeys d) -> length (filter (fun kv => f (snd kv)) d) = length (filter (fun k => match dget d k with Some x => f x | None => false end) (dkeys d)).
Proof. intros N. assert (X : forall d', (forall k x, In (k, x) d' -> dget d k = Some x) -> length (filter (fun kv => f (snd kv)) d') = length (filter (fun k => match dget d k with Some x => f x | None => false end) (map fst d'))).
  { induction d' as [|[k x] d' IH]; intros I; [reflexivity|]. cbn [filter map fst snd]. rewrite (I k x) by (left; reflexivity). assert (E := IH (fun k' x' Hx => I k' x' (or_intror Hx))). destruct (f x); cbn [length]; congruence. }
  apply X. intros k x I. apply (dget_nodup_in d k x N I). Qed.
Lemma addresses_alike (P Q : dprogram) f : NoDup (dkeys P) -> NoDup (dkeys Q) -> alike P Q -> number_of_addresses f P = number_of_addresses f Q.
Proof. intros N N' H. unfold number_of_addresses. f_equal. rewrite (filter_keys (at_least_one f) P N), (filter_keys (at_least_one f) Q N').
  assert (Pk : Permutation (dkeys P) (dkeys Q)) by (apply NoDup_Permutation; [exact N|exact N'|intros x; apply alike_keys, H]). rewrite (Permutation_length (filter_perm _ _ _ Pk)). f_equal. apply filter_ext. intros k. specialize (H k).
  destruct (dget P k), (dget Q k); try contradiction; [|reflexivity]. unfold at_least_one, kept. apply existsb_perm, filter_perm, H. Qed.
Lemma plain_alike p q : alike p q -> alike (plain p) (plain q).
Proof. intros H a. specialize (H a). rewrite !plain_get. destruct (dget p a), (dget q a); try contradiction; cbn [option_map]; [apply Permutation_map, H|exact I]. Qed.
Lemma plain_keys p : dkeys (plain p) = dkeys p.
Proof. unfold dkeys, plain. rewrite map_map. reflexivity. Qed.

Lemma foldM_ext {A B} (f g : A -> B -> result A) l : (forall s x, f s x = g s x) -> forall s, foldM f l s = foldM g l s.
Proof. intros E. induction l as [|x l IH]; intros s; [reflexivity|]. cbn [foldM]. rewrite E. destruct (g s x); cbn [bind]; auto. Qed.
Lemma step_alike m col fns p q lo hi fn a c : NoDup (dkeys p) -> NoDup (dkeys q) -> alike p q -> step m col fns p lo hi fn a c = step m col fns q lo hi fn a c.
Proof. intros N N' H. apply plain_alike in H. rewrite <- plain_keys in N, N'. unfold step. revert H N N'. generalize (plain p) (plain q). intros P R H N N'.
  assert (W : forall k, let w := collect_program (mkWith [] [] []) P in let w' := collect_program (mkWith [] [] []) R in dget (with_cond w) k = dget (with_cond w') k /\ dget (with_op w) k = dget (with_op w') k /\ dget (with_reg w) k = dget (with_reg w') k).
  { intros k. cbv zeta. destruct (C37_addresses (mkWith [] [] []) P k) as (-> & -> & ->). destruct (C37_addresses (mkWith [] [] []) R k) as (-> & -> & ->). rewrite !(fun f => addresses_alike P R f N N' H). auto. }
  unfold score_candidate. destruct (d_ignore (c_inst c)); [reflexivity|]. unfold compute_conditional, compute_opcode, compute_registers, compute_register_distance, ratio, dget_r.
  rewrite (proj1 (W (d_cond (c_inst c)))), (proj1 (proj2 (W (d_op (c_inst c))))).
  set (w' := collect_program (mkWith [] [] []) R) in *. set (w := collect_program (mkWith [] [] []) P) in *. cbv zeta in W.
  assert (Fe : forall s, foldM (fun (av : Q) r => let* q := (let* a0 := match dget (storage_count col) r with Some a0 => Ok a0 | None => Err KeyError end in let* b := match dget (with_reg w) r with Some a0 => Ok a0 | None => Err KeyError end in quot a0 b) in Ok (qmin av q)) (d_used (c_inst c)) s =
     foldM (fun (av : Q) r => let* q := (let* a0 := match dget (storage_count col) r with Some a0 => Ok a0 | None => Err KeyError end in let* b := match dget (with_reg w') r with Some a0 => Ok a0 | None => Err KeyError end in quot a0 b) in Ok (qmin av q)) (d_used (c_inst c)) s).
  { apply foldM_ext. intros s r. rewrite (proj2 (proj2 (W r))). reflexivity. }
  rewrite Fe. rewrite (distance_alike P R H). destruct (or_zero _) as [pc|]; cbn [bind]; [|reflexivity]. destruct (or_zero _) as [po|]; cbn [bind]; [|reflexivity].
  match goal with |- bind ?x _ = bind ?x _ => destruct x as [s2|]; cbn [bind]; [|reflexivity] end. rewrite (push_pop_alike P R H). destruct (compute_push_pop m R fns a fn (c_inst c) s2) as [s3|]; cbn [bind]; [|reflexivity].
  destruct (compute_branch_address m fns fn lo hi (c_inst c) s3) as [s4|]; cbn [bind]; [|reflexivity]. destruct (a =? lo); [reflexivity|]. rewrite (cfg_alike P R H). reflexivity. Qed.

(** *** Removal *)
Lemma nth_pop {A} (v : list A) i j : (i <= j)%nat -> (i < length v)%nat -> nth_error (pop_at v i) j = nth_error v (S j).
Proof. intros L Li. unfold pop_at. rewrite nth_error_app2 by (rewrite firstn_length; lia). rewrite firstn_length. replace (Nat.min i (length v)) with i by lia. clear - L Li. revert i j L Li. induction v as [|x v IH]; intros i j L Li; [cbn in Li; lia|].
  destruct i as [|i]; [rewrite Nat.sub_0_r; reflexivity|]. destruct j as [|j]; [lia|]. cbn [skipn nth_error]. cbn [length] in Li. replace (S j - S i)%nat with (j - i)%nat by lia. apply (IH i j); lia. Qed.
Lemma loop1_reads {A} (sc : A -> result Q) : forall fuel v i ones less x, remove_loop1 sc fuel v i ones less = Ok x -> forall j c, (i <= j)%nat -> nth_error v j = Some c -> exists q, sc c = Ok q.
Proof. induction fuel as [|fuel IH]; intros v i ones less x E j c L Hc; [discriminate|]. cbn [remove_loop1] in E. destruct (nth_error v i) as [d|] eqn:Ed.
  2:{ apply nth_error_None in Ed. assert (nth_error v j = None) by (apply nth_error_None; lia). congruence. }
  destruct (sc d) as [q|] eqn:Eq; cbn [bind] in E; [|discriminate]. assert (Li : (i < length v)%nat) by (apply nth_error_Some; congruence). destruct (Nat.eq_dec i j) as [<-|Ne]; [exists q; congruence|].
  assert (Skip : forall o l, remove_loop1 sc fuel v (S i) o l = Ok x -> exists q, sc c = Ok q) by (intros o l E'; apply (IH _ _ _ _ _ E' j c); [lia|exact Hc]).
  assert (Drop : forall o l, remove_loop1 sc fuel (pop_at v i) i o l = Ok x -> exists q, sc c = Ok q). { intros o l E'. destruct j as [|j]; [lia|]. apply (IH _ _ _ _ _ E' j c); [lia|]. rewrite nth_pop; [exact Hc|lia|exact Li]. }
  destruct (Qeq_bool q 1); [eapply Skip, E|]. destruct (Qeq_bool q 0); [eapply Drop, E|]. destruct (0 <? ones); [eapply Drop, E|eapply Skip, E]. Qed.
Lemma removal_reads {A} (sc : A -> result Q) v x : remove_bad sc v = Ok x -> forall c, In c v -> exists q, sc c = Ok q.
Proof. unfold remove_bad. intros E c I. destruct (remove_loop1 sc (S (length v)) v 0 0 0) as [[[v1 o] l]|] eqn:E1; cbn [bind] in E; [|discriminate]. apply In_nth_error in I. destruct I as (j & Hj). exact (loop1_reads sc _ _ _ _ _ _ E1 j c ltac:(lia) Hj). Qed.
Lemma all_read {A} (sc : A -> result Q) v : (forall c, In c v -> exists q, sc c = Ok q) \/ exists c e, In c v /\ sc c = Err e.
Proof. induction v as [|x v IH]; [left; intros c []|]. destruct (sc x) as [q|e] eqn:E; [|right; exists x, e; cbn; auto]. destruct IH as [IH|(c & e & I & Ec)]; [left; intros c [<-|I]; eauto|right; exists c, e; cbn; auto]. Qed.
Lemma removal_perm {A} (sc : A -> result Q) v w : (forall c q, In c v -> sc c = Ok q -> prob q) -> Permutation v w ->
  same_outcome (fun x y => Permutation (fst x) (fst y) /\ snd x = snd y) (remove_bad sc v) (remove_bad sc w).
Proof. intros Pr P. destruct (all_read sc v) as [Al|(c & e & I & Ec)].
  - set (val := fun c => match sc c with Ok q => q | Err _ => 0%Q end). assert (V : forall c, In c v -> sc c = Ok (val c) /\ prob (val c)). { intros c I. destruct (Al c I) as (q & E). unfold val. rewrite E. split; [reflexivity|apply (Pr c q I E)]. }
    destruct (remove_bad_value sc val v V) as (v' & E & Ev). destruct (remove_bad_value sc val w) as (w' & E' & Ew). { intros c I. apply V. eapply Permutation_in; [apply Permutation_sym, P|exact I]. }
    rewrite E, E'. cbn [same_outcome fst snd]. assert (Pv : Permutation v' w') by (rewrite Ev, Ew, (existsb_perm _ _ _ P); destruct (existsb _ w); apply filter_perm, P). split; [exact Pv|]. rewrite (Permutation_length P), (Permutation_length Pv). reflexivity.
  - destruct (remove_bad sc v) as [x|] eqn:Ev. { destruct (removal_reads sc v x Ev c I). congruence. } destruct (remove_bad sc w) as [y|] eqn:Ew; [|exact Logic.I]. assert (I' : In c w) by (eapply Permutation_in; [exact P|exact I]). destruct (removal_reads sc w y Ew c I'). congruence. Qed.

(** *** What a pass writes *)
Definition put (e : list (Z * Q)) (s : scores) : scores := fold_left (fun s kq => dset s (fst kq) (snd kq)) e s.
Definition puts (ks : list Z) (f : scores -> result scores) : Prop := exists es, (forall e, es = Ok e -> map fst e = ks) /\ forall s, f s = (let* e := es in Ok (put e s)).
Lemma puts_none : puts [] (fun s => Ok s).
Proof. exists (Ok []). split; [intros e E; injection E as <-; reflexivity|reflexivity]. Qed.
Lemma puts_one k q : puts [k] (fun s => Ok (dset s k q)).
Proof. exists (Ok [(k, q)]). split; [intros e E; injection E as <-; reflexivity|reflexivity]. Qed.
Lemma puts_err ks e : puts ks (fun _ => Err e).
Proof. exists (Err e). split; [discriminate|reflexivity]. Qed.
Lemma puts_bind ks ks' f g : puts ks f -> puts ks' g -> puts (ks ++ ks') (fun s => let* s1 := f s in g s1).
Proof. intros (ef & Kf & Ef) (eg & Kg & Eg). exists (let* x := ef in let* y := eg in Ok (x ++ y)). split.
  - intros e E. destruct ef as [x|]; cbn [bind] in E; [|discriminate]. destruct eg as [y|]; cbn [bind] in E; [|discriminate]. injection E as <-. rewrite map_app, (Kf x eq_refl), (Kg y eq_refl). reflexivity.
  - intros s. rewrite Ef. destruct ef as [x|]; cbn [bind]; [|reflexivity]. rewrite Eg. destruct eg as [y|]; cbn [bind]; [|reflexivity]. unfold put. rewrite fold_left_app. reflexivity. Qed.
Lemma puts_const ks (x : result Q) g : (forall q, puts ks (g q)) -> puts ks (fun s => let* q := x in g q s).
Proof. intros H. destruct x as [q|e]; cbn [bind]; [apply H|apply puts_err]. Qed.
Lemma puts_ext ks f g : (forall s, f s = g s) -> puts ks f -> puts ks g.
Proof. intros E (es & K & F). exists es. split; [exact K|]. intros s. rewrite <- E. apply F. Qed.

(** The entries of a candidate, in the order they are made. *)
Definition keys_for (i : dinst) (first : bool) : list Z :=
  [Kpc] ++ [Kpo] ++ (if d_branch i || pushpop i then [] else [Kpr]) ++ (if pushpop i then [Kpopu] else []) ++ (if d_branch i then [Kpbd] else []) ++
  (if first then [] else (if d_branch i || pushpop i then [] else [Kprd]) ++ [Kpcfg]).
Lemma keys_for_nodup i first : NoDup (keys_for i first).
Proof. unfold keys_for. destruct (d_branch i), (pushpop i), first; cbn [orb app]; repeat constructor; cbn; unfold Kpc, Kpo, Kpr, Kpopu, Kpbd, Kprd, Kpcfg; intuition lia. Qed.

Lemma candidate_puts m col w fns prog lo hi fn a first i : d_ignore i = false ->
  exists es, (forall e, es = Ok e -> map fst e = keys_for i first) /\ forall c, c_inst c = i -> score_candidate m col w fns prog lo hi fn a first c = (let* e := es in Ok (mkCand i (put e (c_scores c)) RemoveStep)).
Proof. intros Ig.
  assert (P : puts (keys_for i first) (fun s => let* s := compute_conditional col w i s in let* s := compute_opcode col w i s in let* s := compute_registers col w i s in let* s := compute_push_pop m prog fns a fn i s in
     let* s := compute_branch_address m fns fn lo hi i s in if first then Ok s else compute_cfg m prog a i (compute_register_distance m col prog a i s))).
  { unfold keys_for. apply puts_bind; [unfold compute_conditional; apply puts_const; intros; apply puts_one|]. apply puts_bind; [unfold compute_opcode; apply puts_const; intros; apply puts_one|].
    apply puts_bind. { unfold compute_registers. destruct (d_branch i || pushpop i); [apply puts_none|]. apply puts_const; intros; apply puts_one. }
    apply puts_bind. { assert (Fi : forall p1 p2 e, puts [Kpopu] (fun s => finish_push_pop m prog a s p1 p2 e)). { intros p1 p2 e. unfold finish_push_pop, dget_r. destruct (dget prog a); cbn [bind]; [|apply puts_err]. apply puts_const; intros; apply puts_one. }
      unfold compute_push_pop, pushpop. cbv zeta. destruct (d_kind i); [| |apply puts_none].
      - destruct (dget fns a) as [[f l]|]; [|apply Fi]. destruct (op_prob prog KPop l (d_rread i)) as [[p1 e]|]; cbn [bind]; [|apply puts_err]. apply (puts_const _ _ (fun q s => finish_push_pop m prog a s p1 q e)). intros; apply Fi.
      - destruct (op_prob prog KPush fn (d_rwritten i)) as [[p1 e]|]; cbn [bind]; [apply Fi|apply puts_err]. }
    apply puts_bind. { unfold compute_branch_address. rewrite Ig. cbn [orb]. destruct (d_branch i); cbn [negb]; [|apply puts_none]. destruct (d_jump i) as [j|]; [|apply puts_one].
      match goal with |- puts _ (fun s => bind ?x (@?g s)) => destruct x as [[|]|]; cbn [bind]; [| |apply puts_err] end; [apply puts_one|]. destruct (dmem fns j); [apply puts_one|]. destruct ((hi <? j) || (j <? lo)); apply puts_one. }
    destruct first; [apply puts_none|]. apply (puts_bind _ _ (fun s => Ok (compute_register_distance m col prog a i s)) (fun s => compute_cfg m prog a i s)).
    - unfold compute_register_distance. destruct (d_branch i || pushpop i); [apply puts_none|apply puts_one].
    - unfold compute_cfg. cbv zeta. match goal with |- puts _ (fun s => bind ?x (@?g s)) => destruct x as [r|]; cbn [bind]; [|apply puts_err] end. destruct (Qeq_bool r 0); [apply puts_one|]. destruct (qlt 1 r); [apply puts_err|apply puts_one]. }
  destruct P as (es & K & E). exists es. split; [exact K|]. intros c Hc. specialize (E (c_scores c)). unfold score_candidate. rewrite Hc, Ig. clear K.
  destruct (compute_conditional col w i (c_scores c)) as [s1|]; cbn [bind] in *; [|destruct es; cbn [bind] in *; congruence]. destruct (compute_opcode col w i s1) as [s2|]; cbn [bind] in *; [|destruct es; cbn [bind] in *; congruence].
  destruct (compute_registers col w i s2) as [s3|]; cbn [bind] in *; [|destruct es; cbn [bind] in *; congruence]. destruct (compute_push_pop m prog fns a fn i s3) as [s4|]; cbn [bind] in *; [|destruct es; cbn [bind] in *; congruence].
  destruct (compute_branch_address m fns fn lo hi i s4) as [s5|]; cbn [bind] in *; [|destruct es; cbn [bind] in *; congruence]. rewrite E. destruct es; reflexivity. Qed.

Lemma put_get e : forall s, NoDup (map fst e) -> forall k, dget (put e s) k = match dget e k with Some q => Some q | None => dget s k end.
Proof. induction e as [|[k q] e IH]; intros s N k'; [reflexivity|]. cbn [map fst] in N. inversion N as [|? ? Nk N']; subst. change (dget (put e (dset s k q)) k' = match (if k' =? k then Some q else dget e k') with Some q0 => Some q0 | None => dget s k' end). rewrite (IH _ N').
  destruct (Z.eqb_spec k' k) as [->|Ne]; [|rewrite dget_dset_other by exact Ne; reflexivity]. destruct (dget e k) eqn:E; [|apply dget_dset_same]. exfalso. apply Nk. apply (dget_some_in e k). eauto. Qed.
Lemma dset_same {A} (s : dict A) k q : dget s k = Some q -> dset s k q = s.
Proof. induction s as [|[k' x] s IH]; cbn [dget dset]; [discriminate|]. destruct (k =? k'); intros E; [injection E as ->; reflexivity|]. rewrite IH by exact E. reflexivity. Qed.
Lemma put_same e : forall s, (forall k q, In (k, q) e -> dget s k = Some q) -> put e s = s.
Proof. induction e as [|[k q] e IH]; intros s H; [reflexivity|]. cbn [put fold_left fst snd]. rewrite dset_same by (apply H; left; reflexivity). apply IH. intros k' q' I. apply H. right; exact I. Qed.
Lemma put_twice e s : NoDup (map fst e) -> put e (put e s) = put e s.
Proof. intros N. apply put_same. intros k q I. rewrite (put_get e s N). rewrite (dget_nodup_in e k q N I). reflexivity. Qed.
Lemma dict_ext {A} : forall (d d' : dict A), dkeys d = dkeys d' -> NoDup (dkeys d) -> (forall k, In k (dkeys d) -> dget d k = dget d' k) -> d = d'.
Proof. induction d as [|[k x] d IH]; intros [|[k' x'] d'] E Nd G; cbn [dkeys map fst] in E; try discriminate; [reflexivity|]. assert (k' = k) as -> by congruence. inversion Nd as [|? ? Nk Nd']; subst. pose proof (G k (or_introl eq_refl)) as Gk. cbn [dget] in Gk. rewrite Z.eqb_refl in Gk. injection Gk as ->. f_equal. apply IH; [unfold dkeys; congruence|exact Nd'|].
  intros k2 I. specialize (G k2 (or_intror I)). cbn [dget] in G. destruct (Z.eqb_spec k2 k) as [E2|Ne]; [rewrite E2 in I; contradiction|exact G]. Qed.
Lemma put_over e s : NoDup (map fst e) -> dkeys s = map fst e -> put e s = e.
Proof. intros N K. assert (Kp : dkeys (put e s) = map fst e). { assert (X : forall e' s', (forall k, In k (map fst e') -> In k (dkeys s')) -> dkeys (put e' s') = dkeys s'). { induction e' as [|[k q] e' IH]; intros s' H; [reflexivity|]. cbn [put fold_left fst snd]. assert (D : dkeys (dset s' k q) = dkeys s'). { rewrite dkeys_dset. unfold dmem. assert (Ik : In k (dkeys s')) by (apply H; left; reflexivity). apply dget_some_in in Ik. destruct Ik as (x & ->). reflexivity. } change (dkeys (put e' (dset s' k q)) = dkeys s'). rewrite IH; [exact D|]. intros k' I. rewrite D. apply H. right; exact I. } rewrite X; [exact K|]. intros k I. rewrite K. exact I. }
  apply dict_ext; [exact Kp|rewrite Kp; exact N|]. intros k _. rewrite (put_get e s N). destruct (dget e k) eqn:E; [reflexivity|]. destruct (dget s k) eqn:X; [|reflexivity]. exfalso. assert (I : In k (dkeys s)) by (apply dget_some_in; eauto). rewrite K in I. apply (dget_some_in e k) in I. destruct I. congruence. Qed.
