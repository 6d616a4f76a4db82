(** C142: when a pass of the recovery completes. *)
From Verif Require Import ListLemmas FlipModel FlipProofs InstModel MetaModel MetaSpec MetaProofs RecModel RecSpec RecProofs RecProofs2 RecProofs3 RecProofs4 RemoveProofs RecProps SiftSpec SiftProps.
From Verif Require IoModel IoProps.
From Coq Require Import ZifyBool ZifyNat Permutation Sorted Lqa.

(** The addresses four apart, down from the last one of a function to its first, which
    is left out; where some candidate that is not ignored is a pop or a branch. *)
Definition within (first last x : Z) : Prop := first < x <= last /\ (last - x) mod 4 = 0.
Definition offers_at (p : cprogram) (x : Z) (f : dinst -> bool) : Prop := exists c, candidate p x c /\ d_ignore (c_inst c) = false /\ f (c_inst c) = true.
Definition is_pop (i : dinst) : bool := match d_kind i with KPop => true | _ => false end.
Lemma pop_kind i : is_pop i = same_kind (d_kind i) KPop.
Proof. unfold is_pop. destruct (d_kind i); reflexivity. Qed.
(** No candidates at [x], and above it not both a pop and, one address further up or
    higher, a branch. *)
Definition hole (p : cprogram) (first last x : Z) : Prop :=
  within first last x /\ ~ In x (dkeys p) /\
  ~ ((exists y, within first last y /\ x < y /\ offers_at p y is_pop) /\ exists z, within first last z /\ x + 4 < z /\ offers_at p z d_branch).
(** What a pass cannot do with a candidate: a push that opens a function whose last
    address has no candidates, or that has a hole; a branch, at or above the lowest
    address, before the first function known. *)
Definition stuck (fns : functions) (p : cprogram) (a : Z) (c : cand) : Prop :=
  d_ignore (c_inst c) = false /\
  ((d_kind (c_inst c) = KPush /\ exists first last, dget fns a = Some (first, last) /\ (~ In last (dkeys p) \/ exists x, hole p a last x)) \/
   (d_branch (c_inst c) = true /\ exists j fn, d_jump (c_inst c) = Some j /\ current_function fns (dkeys p) a fn /\ fn <= j /\ dmem fns fn = false)).

(** *** The pieces *)
Lemma plain_get p a : dget (plain p) a = option_map (map c_inst) (dget p a).
Proof. unfold plain. induction p as [|[k v] p IH]; [reflexivity|]. cbn [map dget fst snd]. destruct (a =? k); [reflexivity|exact IH]. Qed.
Lemma offers_get p x f l : dget (plain p) x = Some l -> (offers_at p x f <-> exists i, In i l /\ d_ignore i = false /\ f i = true).
Proof. intros G. rewrite plain_get in G. destruct (dget p x) as [cs|] eqn:E; [|discriminate]. cbn in G. injection G as <-. split.
  - intros (c & (cs' & G' & I) & A & B). assert (cs' = cs) as -> by congruence. exists (c_inst c). split; [apply in_map, I|auto].
  - intros (i & I & A & B). apply in_map_iff in I. destruct I as (c & <- & I). exists c. split; [exists cs; auto|auto]. Qed.
Lemma alive orig p : has_original orig p -> forall x l, dget (plain p) x = Some l -> exists i, In i l /\ d_ignore i = false.
Proof. intros (_ & _ & A & B) x l G. pose proof G as G0. rewrite plain_get in G. destruct (dget p x) as [cs|] eqn:E; [|discriminate]. destruct (B x) as (o & Ho & <-); [apply dget_some_in; eauto|]. destruct (A o Ho) as (Ig & _ & c & (cs' & G' & I) & Ec).
  assert (cs' = cs) as -> by congruence. cbn in G. injection G as <-. exists o. split; [rewrite <- Ec; apply in_map, I|exact Ig]. Qed.

Definition op_step (opcode : kind) (regs : list Z) := fun (st : Z * Z * bool) (i : dinst) => let '(c, t, eq) := st in
  if d_ignore i then st else if same_kind (d_kind i) opcode then (c + 1, t + 1, eq || equal_registers (d_rwritten i) regs) else (c, t + 1, eq).
Lemma op_fold opcode regs l : forall c t eq, t <= snd (fst (fold_left (op_step opcode regs) l (c, t, eq))) /\ ((exists i, In i l /\ d_ignore i = false) -> t < snd (fst (fold_left (op_step opcode regs) l (c, t, eq)))).
Proof. induction l as [|x l IH]; intros c t eq; [cbn; split; [lia|intros (i & [] & _)]|]. cbn [fold_left]. unfold op_step at 2 4. destruct (d_ignore x) eqn:Ig.
  - destruct (IH c t eq) as [A B]. split; [exact A|]. intros (i & [<-|I] & E); [congruence|]. apply B. eauto.
  - destruct (same_kind (d_kind x) opcode); [destruct (IH (c + 1) (t + 1) (eq || equal_registers (d_rwritten x) regs)) as [A B]|destruct (IH c (t + 1) eq) as [A B]]; (split; [|intros _]); lia. Qed.
Lemma op_prob_ok orig p k x regs : has_original orig p -> In x (dkeys p) -> exists r, op_prob (plain p) k x regs = Ok r.
Proof. intros HO I. unfold op_prob. assert (G : exists l, dget (plain p) x = Some l) by (rewrite plain_get; apply dget_some_in in I; destruct I as (cs & ->); eexists; reflexivity). destruct G as (l & G). unfold dget_r. rewrite G. cbn [bind].
  change (exists r, (let '(c, t, eq) := fold_left (op_step k regs) l (0, 0, false) in let* p0 := quot c t in Ok (p0, eq)) = Ok r). destruct (op_fold k regs l 0 0 false) as [_ B]. specialize (B (alive _ _ HO _ _ G)). destruct (fold_left (op_step k regs) l (0, 0, false)) as [[c t] eq]. cbn [fst snd] in B. unfold quot. replace (t =? 0) with false by lia. cbn [bind]. eauto. Qed.
Lemma op_prob_missing p k x regs : ~ In x (dkeys p) -> op_prob (plain p) k x regs = Err KeyError.
Proof. intros N. unfold op_prob, dget_r. rewrite plain_get. destruct (dget p x) as [cs|] eqn:E; [exfalso; apply N, dget_some_in; eauto|]. reflexivity. Qed.

(** The walk down. *)
Definition walk_step := fun (st : Z * Z * Z) (i : dinst) => let '(cb, cp, t) := st in
  if d_ignore i then st else ((if d_branch i then cb + 1 else cb), (if same_kind (d_kind i) KPop then cp + 1 else cp), t + 1).
Lemma walk_fold l : forall cb cp t, 0 <= cb -> 0 <= cp -> cb <= t -> cp <= t -> let '(cb', cp', t') := fold_left walk_step l (cb, cp, t) in
  cb <= cb' <= t' /\ cp <= cp' <= t' /\ t <= t' /\ (0 < cb' <-> 0 < cb \/ exists i, In i l /\ d_ignore i = false /\ d_branch i = true) /\ (0 < cp' <-> 0 < cp \/ exists i, In i l /\ d_ignore i = false /\ is_pop i = true).
Proof. induction l as [|x l IH]; intros cb cp t H1 H2 H3 H4; [cbn; repeat split; try lia; (intros [X|(i & [] & _)]; lia)|]. cbn [fold_left]. unfold walk_step at 2. destruct (d_ignore x) eqn:Ig.
  - specialize (IH cb cp t H1 H2 H3 H4). destruct (fold_left walk_step l (cb, cp, t)) as [[cb' cp'] t']. destruct IH as (A & B & C & D & E). split; [exact A|]. split; [exact B|]. split; [exact C|]. rewrite D, E. split; (split; [intros [X|(i & I & Y & Z)]; [auto|right; exists i; cbn; auto]|intros [X|(i & [<-|I] & Y & Z)]; [auto|congruence|right; exists i; auto]]).
  - specialize (IH (if d_branch x then cb + 1 else cb) (if same_kind (d_kind x) KPop then cp + 1 else cp) (t + 1)). destruct (fold_left walk_step l _) as [[cb' cp'] t']. destruct IH as (A & B & C & D & E); [destruct (d_branch x); lia|destruct (same_kind (d_kind x) KPop); lia|destruct (d_branch x); lia|destruct (same_kind (d_kind x) KPop); lia|].
    split; [destruct (d_branch x); lia|]. split; [destruct (same_kind (d_kind x) KPop); lia|]. split; [lia|]. rewrite D, E. split.
    + destruct (d_branch x) eqn:Eb; split; intros H.
      * right. exists x. cbn. auto.
      * left. lia.
      * destruct H as [H|(i & I & Y)]; [left; lia|right; exists i; cbn; tauto].
      * destruct H as [H|(i & [<-|I] & Y & Z)]; [left; lia|congruence|right; exists i; auto].
    + rewrite <- pop_kind. destruct (is_pop x) eqn:Eb; split; intros H.
      * right. exists x. cbn. auto.
      * left. lia.
      * destruct H as [H|(i & I & Y)]; [left; lia|right; exists i; cbn; tauto].
      * destruct H as [H|(i & [<-|I] & Y & Z)]; [left; lia|congruence|right; exists i; auto]. Qed.

Lemma walk_value cp' t' cb t : 0 < t -> 0 < t' -> 0 <= cp' -> 0 <= cb -> qlt 0 (inject_Z cp' / inject_Z t' * inject_Z cb / inject_Z t)%Q = true <-> 0 < cp' /\ 0 < cb.
Proof. intros Ht Ht' Hc Hb. destruct (qlt_spec 0 (inject_Z cp' / inject_Z t' * inject_Z cb / inject_Z t)%Q) as [L|L].
  - split; [intros _|reflexivity]. split.
    + destruct (Z.eq_dec cp' 0) as [->|]; [|lia]. exfalso. assert (X : (inject_Z 0 / inject_Z t' * inject_Z cb / inject_Z t == 0)%Q) by (unfold Qdiv; change (inject_Z 0) with 0%Q; ring). rewrite X in L. apply (Qlt_irrefl 0 L).
    + destruct (Z.eq_dec cb 0) as [->|]; [|lia]. exfalso. assert (X : (inject_Z cp' / inject_Z t' * inject_Z 0 / inject_Z t == 0)%Q) by (unfold Qdiv; change (inject_Z 0) with 0%Q; ring). rewrite X in L. apply (Qlt_irrefl 0 L).
  - split; [discriminate|]. intros [A B]. exfalso. apply L.
    assert (P : forall z, 0 < z -> (0 < inject_Z z)%Q) by (intros z Hz; change 0%Q with (inject_Z 0); rewrite <- Zlt_Qlt; exact Hz).
    unfold Qdiv. repeat apply Qmult_lt_0_compat; try apply Qinv_lt_0_compat; apply P; assumption. Qed.

(** [walk_down] over any addresses: fails at the first one without candidates unless it
    stopped before. *)
Definition stops (p : cprogram) (cb cp : Z) (pre : list Z) : Prop := exists u y v, pre = u ++ y :: v /\
  (0 < cp \/ exists z, In z (u ++ [y]) /\ offers_at p z is_pop) /\ (0 < cb \/ exists z, In z u /\ offers_at p z d_branch).
Lemma walk_spec p : forall addrs cb cp t p2, 0 <= cb -> 0 <= cp -> cb <= t -> cp <= t -> qlt 0 p2 = false ->
  ((exists q, walk_down (plain p) addrs cb cp t p2 = Ok q) \/ walk_down (plain p) addrs cb cp t p2 = Err KeyError) /\
  (walk_down (plain p) addrs cb cp t p2 = Err KeyError <-> exists pre x post, addrs = pre ++ x :: post /\ ~ In x (dkeys p) /\ ~ stops p cb cp pre).
Proof. induction addrs as [|x addrs IH]; intros cb cp t p2 H1 H2 H3 H4 H6.
  - split; [left; cbn; eauto|]. split; [discriminate|]. intros (pre & x & post & E & _). destruct pre; discriminate.
  - cbn [walk_down]. unfold dget_r. destruct (dget (plain p) x) as [l|] eqn:G.
    2:{ split; [right; reflexivity|]. split; [|reflexivity]. intros _. exists [], x, addrs. split; [reflexivity|]. split.
        - intros I. apply dget_some_in in I. destruct I as (cs & E). rewrite plain_get, E in G. discriminate.
        - intros (u & y & v & E & _). destruct u; discriminate. }
    assert (Hx : In x (dkeys p)). { rewrite plain_get in G. destruct (dget p x) eqn:E; [|discriminate]. apply dget_some_in. eauto. }
    cbn [bind]. pose proof (walk_fold l cb cp t H1 H2 H3 H4) as W. change (fold_left _ l (cb, cp, t)) with (fold_left walk_step l (cb, cp, t)). destruct (fold_left walk_step l (cb, cp, t)) as [[cb' cp'] t']. destruct W as (A & B & C & D & E). cbv zeta.
    rewrite <- (offers_get p x d_branch l G) in D. rewrite <- (offers_get p x is_pop l G) in E.
    assert (V : qlt 0 (if (0 <? t) && (0 <? t') then (inject_Z cp' / inject_Z t' * inject_Z cb / inject_Z t)%Q else p2) = true <-> 0 < cp' /\ 0 < cb).
    { destruct ((0 <? t) && (0 <? t')) eqn:Et; [apply walk_value; lia|]. rewrite H6. split; [discriminate|]. intros [X Y]. lia. }
    match type of V with (qlt 0 ?q = true <-> _) => set (v2 := q) in *; destruct (qlt 0 v2) eqn:Eq end.
    + split; [left; eauto|]. split; [discriminate|]. intros (pre & z & post & Ep & N & S). exfalso. destruct V as [V _]. destruct (V eq_refl) as [V1 V2]. destruct pre as [|y pre]; cbn in Ep; injection Ep as <- ->; [contradiction|].
      apply S. exists [], x, pre. split; [reflexivity|]. split; [|left; exact V2]. apply E in V1. destruct V1 as [V1|V1]; [left; exact V1|right; exists x; cbn; auto].
    + assert (Nv : ~ (0 < cp' /\ 0 < cb)) by (intros X; apply V in X; discriminate). match goal with |- context [walk_down _ _ _ _ _ ?q] => destruct (IH cb' cp' t' q) as [J1 J2]; [lia|lia|lia|lia|exact Eq|] end.
      split; [exact J1|]. rewrite J2.
      assert (St : forall pre, stops p cb cp (x :: pre) <-> stops p cb' cp' pre).
      { intros pre. split.
        - intros (u & y & v & Ep & S1 & S2). destruct u as [|u0 u]; cbn in Ep; injection Ep as <- ->.
          + exfalso. apply Nv. split; [apply E; destruct S1 as [S1|(z & [<-|[]] & S1)]; auto|destruct S2 as [S2|(z & [] & _)]; exact S2].
          + exists u, y, v. split; [reflexivity|]. split; [destruct S1 as [S1|(z & [<-|I] & S1)]; [left; lia|left; tauto|right; eauto]|destruct S2 as [S2|(z & [<-|I] & S2)]; [left; lia|left; tauto|right; eauto]].
        - intros (u & y & v & -> & S1 & S2). exists (x :: u), y, v. split; [reflexivity|]. split.
          + destruct S1 as [S1|(z & I & S1)]; [apply E in S1; destruct S1 as [S1|S1]; [auto|right; exists x; cbn; auto]|right; exists z; cbn; auto].
          + destruct S2 as [S2|(z & I & S2)]; [apply D in S2; destruct S2 as [S2|S2]; [auto|right; exists x; cbn; auto]|right; exists z; cbn; auto]. }
      split.
      * intros (pre & z & post & -> & N & S). exists (x :: pre), z, post. split; [reflexivity|]. split; [exact N|]. rewrite St. exact S.
      * intros (pre & z & post & Ep & N & S). destruct pre as [|y pre]; cbn in Ep; injection Ep as <- ->; [contradiction|]. exists pre, z, post. split; [reflexivity|]. split; [exact N|]. rewrite <- St. exact S. Qed.

Lemma zrange_split b : forall u v a, a <= b -> zrange a b = u ++ v -> u = zrange a (a + Z.of_nat (length u)) /\ v = zrange (a + Z.of_nat (length u)) b /\ a + Z.of_nat (length u) <= b.
Proof. induction u as [|x u IH]; intros v a L E; cbn [app length] in *; [rewrite zrange_nil by lia; replace (a + Z.of_nat 0) with a by lia; auto|].
  destruct (Z.eq_dec a b) as [->|Ne]; [rewrite zrange_nil in E by lia; discriminate|]. rewrite zrange_cons in E by lia. injection E as <- E. destruct (IH v (a + 1)) as (A & B & C); [lia|exact E|].
  replace (a + Z.of_nat (S (length u))) with (a + 1 + Z.of_nat (length u)) by lia. split; [|split; [exact B|lia]]. rewrite A at 1. rewrite (zrange_cons a) by lia. reflexivity. Qed.
Lemma down_in hi lo x : In x (down_range hi lo) <-> within lo hi x.
Proof. unfold down_range, within. rewrite in_map_iff. split.
  - intros (k & <- & I). apply in_zrange in I. split; [|replace (hi - (hi - 4 * k)) with (k * 4) by lia; apply Z.mod_mul; lia]. split; [|lia]. assert (4 * k < hi - lo); [|lia]. pose proof (Z.mul_div_le (hi - lo + 3) 4). lia.
  - intros ((A & B) & M). exists ((hi - x) / 4). pose proof (Z.div_mod (hi - x) 4). split; [lia|]. apply in_zrange. split; [apply Z.div_pos; lia|]. apply Z.div_lt_upper_bound; [lia|]. pose proof (Z.mod_pos_bound (hi - lo + 3) 4). pose proof (Z.div_mod (hi - lo + 3) 4). lia. Qed.
Lemma down_split hi lo pre x post : down_range hi lo = pre ++ x :: post -> forall y, In y pre <-> within lo hi y /\ x < y.
Proof. intros E y. assert (I : within lo hi x) by (apply down_in; rewrite E; apply in_app_iff; right; left; reflexivity). unfold down_range in E.
  destruct (Z.le_gt_cases 0 ((hi - lo + 3) / 4)) as [L|L]; [|rewrite zrange_nil in E by lia; destruct pre; discriminate].
  apply map_eq_app in E. destruct E as (u & v & E & Eu & Ev). destruct (zrange_split _ _ _ _ L E) as (A & B & C). cbn [Z.add] in *. set (n := Z.of_nat (length u)) in *.
  destruct v as [|k v]; [discriminate|]. assert (Ex : hi - 4 * k = x) by (cbn [map] in Ev; congruence). clear Ev. assert (Lk : n < (hi - lo + 3) / 4) by (destruct (Z.eq_dec n ((hi - lo + 3) / 4)) as [X|X]; [rewrite zrange_nil in B by lia; discriminate|lia]). rewrite zrange_cons in B by lia. injection B as -> _.
  rewrite <- Eu, A, in_map_iff. split.
  - intros (j & <- & J). apply in_zrange in J. split; [|lia]. destruct I as ((I1 & I2) & I3). split; [lia|]. replace (hi - (hi - 4 * j)) with (j * 4) by lia. apply Z.mod_mul. lia.
  - intros (((W1 & W2) & W3) & Ly). exists ((hi - y) / 4). pose proof (Z.div_mod (hi - y) 4). split; [lia|]. apply in_zrange. split; [apply Z.div_pos; lia|lia]. Qed.

Lemma walk_hole p a last : (exists q, walk_down (plain p) (down_range last a) 0 0 0 0%Q = Ok q) \/ walk_down (plain p) (down_range last a) 0 0 0 0%Q = Err KeyError.
Proof. apply walk_spec; try lia. reflexivity. Qed.
Lemma walk_stuck p a last : walk_down (plain p) (down_range last a) 0 0 0 0%Q = Err KeyError <-> exists x, hole p a last x.
Proof. destruct (walk_spec p (down_range last a) 0 0 0 0%Q) as [_ W]; try lia; [reflexivity|]. rewrite W. clear W.
  assert (S : forall pre x post, down_range last a = pre ++ x :: post -> (stops p 0 0 pre <-> (exists y, within a last y /\ x < y /\ offers_at p y is_pop) /\ exists z, within a last z /\ x + 4 < z /\ offers_at p z d_branch)).
  { intros pre x post E. pose proof (down_split _ _ _ _ _ E) as P. split.
    - intros (u & y & v & -> & S1 & S2). destruct S1 as [S1|(z1 & I1 & O1)]; [lia|]. destruct S2 as [S2|(z2 & I2 & O2)]; [lia|]. rewrite <- app_assoc in E. cbn [app] in E. pose proof (down_split _ _ _ _ _ E) as P2.
      assert (Y : within a last y /\ x < y) by (apply P, in_app_iff; right; left; reflexivity). apply in_app_iff in I1. split.
      + exists z1. assert (I : within a last z1 /\ x < z1); [|split; [apply I|split; [apply I|exact O1]]]. apply P, in_app_iff. destruct I1 as [I1|[<-|[]]]; [left; exact I1|right; left; reflexivity].
      + apply P2 in I2. exists z2. split; [apply I2|]. split; [|exact O2]. assert (Wx : within a last x) by (apply down_in; rewrite E; apply in_app_iff; right; right; apply in_app_iff; right; left; reflexivity). clear - Y I2 Wx. unfold within in *.
        destruct Y as [[_ Y1] Y2]. destruct I2 as [_ I2]. destruct Wx as [_ W]. pose proof (Z.div_mod (last - y) 4). pose proof (Z.div_mod (last - x) 4). lia.
    - intros ((y & Wy & Ly & Oy) & (z & Wz & Lz & Oz)). assert (Py : In y pre) by (apply P; auto). destruct (exists_last (l := pre)) as (u & w & ->); [intros ->; destruct Py|]. exists u, w, []. split; [reflexivity|]. split; [right; eauto|]. right. exists z. split; [|exact Oz].
      rewrite <- app_assoc in E. cbn [app] in E. apply (down_split _ _ _ _ _ E). split; [exact Wz|]. destruct (Z.le_gt_cases z w) as [L|L]; [exfalso|exact L].
      assert (Pn : In (x + 4) (u ++ [w])). { apply P. split; [|lia]. assert (Wx : within a last x) by (apply down_in; rewrite E; apply in_app_iff; right; right; left; reflexivity). clear - Wz Lz Wx. unfold within in *. destruct Wx as [W1 W2]. split; [lia|]. replace (last - (x + 4)) with (last - x + (-1) * 4) by lia. rewrite Z.mod_add by lia. exact W2. }
      apply in_app_iff in Pn. destruct Pn as [Pn|[Pn|[]]]; [|lia]. apply (down_split _ _ _ _ _ E) in Pn. lia. }
  split.
  - intros (pre & x & post & E & N & St). exists x. split; [apply down_in; rewrite E; apply in_app_iff; right; left; reflexivity|]. split; [exact N|]. rewrite <- (S _ _ _ E). exact St.
  - intros (x & W & N & St). apply down_in in W. destruct (in_split _ _ W) as (pre & post & E). exists pre, x, post. split; [exact E|]. split; [exact N|]. rewrite (S _ _ _ E). exact St. Qed.

(** Push and pop, and branches. *)
Lemma finish_ok m p a s p1 p2 e : (exists c, candidate p a c) -> exists s', finish_push_pop m (plain p) a s p1 p2 e = Ok s'.
Proof. intros (c & cs & G & I). unfold finish_push_pop, dget_r. rewrite plain_get, G. cbn [option_map bind]. rewrite map_length. unfold quot. destruct cs as [|c0 cs]; [destruct I|]. replace (Z.of_nat (length (c0 :: cs)) =? 0) with false by (cbn [length]; lia). cbn [bind]. eexists. reflexivity. Qed.
Definition push_stuck (fns : functions) (p : cprogram) (a : Z) (i : dinst) : Prop :=
  d_kind i = KPush /\ exists first last, dget fns a = Some (first, last) /\ (~ In last (dkeys p) \/ exists x, hole p a last x).
Lemma push_pop_exact m orig fns p a fn c : has_original orig p -> candidate p a c -> In fn (dkeys p) -> forall s,
  ((exists s', compute_push_pop m (plain p) fns a fn (c_inst c) s = Ok s') /\ ~ push_stuck fns p a (c_inst c)) \/
  (compute_push_pop m (plain p) fns a fn (c_inst c) s = Err KeyError /\ push_stuck fns p a (c_inst c)).
Proof. intros HO Hc Hf s. unfold compute_push_pop, push_stuck. cbv zeta. destruct (d_kind (c_inst c)).
  - destruct (dget fns a) as [[first last]|] eqn:G.
    + destruct (in_dec Z.eq_dec last (dkeys p)) as [I|N].
      * destruct (op_prob_ok orig p KPop last (d_rread (c_inst c)) HO I) as ([p1 e] & ->). cbn [bind]. destruct (walk_hole p a last) as [(q & E)|E]; rewrite E; cbn [bind].
        -- left. split; [apply finish_ok; eauto|]. intros (_ & f & l & G' & [X|X]); injection G' as <- <-; [contradiction|]. apply walk_stuck in X. congruence.
        -- right. split; [reflexivity|]. split; [reflexivity|]. exists first, last. split; [reflexivity|]. right. apply walk_stuck, E.
      * rewrite (op_prob_missing p KPop last _ N). right. split; [reflexivity|]. split; [reflexivity|]. exists first, last. auto.
    + left. split; [apply finish_ok; eauto|]. intros (_ & f & l & G' & _). discriminate.
  - destruct (op_prob_ok orig p KPush fn (d_rwritten (c_inst c)) HO Hf) as ([p1 e] & ->). cbn [bind]. left. split; [apply finish_ok; eauto|]. intros (X & _). discriminate.
  - left. split; [eauto|]. intros (X & _). discriminate. Qed.
Definition branch_stuck (fns : functions) (fn : Z) (i : dinst) : Prop := d_branch i = true /\ exists j, d_jump i = Some j /\ fn <= j /\ dmem fns fn = false.
Lemma branch_exact m fns fn lo hi i s : d_ignore i = false ->
  ((exists s', compute_branch_address m fns fn lo hi i s = Ok s') /\ ~ branch_stuck fns fn i) \/
  (compute_branch_address m fns fn lo hi i s = Err KeyError /\ branch_stuck fns fn i).
Proof. intros Ig. unfold compute_branch_address, branch_stuck. rewrite Ig. cbn [orb]. destruct (d_branch i); cbn [negb]; [|left; split; [eauto|intros (X & _); discriminate]].
  destruct (d_jump i) as [j|]; [|left; split; [eauto|intros (_ & k & X & _); discriminate]]. destruct (fn <=? j) eqn:L.
  - unfold dget_r, dmem. destruct (dget fns fn) as [f|]; cbn [bind].
    + left. split; [|intros (_ & k & _ & _ & X); discriminate]. destruct (j <=? snd f); [eauto|]. fold (dmem fns j). destruct (dmem fns j); [eauto|]. destruct ((hi <? j) || (j <? lo)); eauto.
    + right. split; [reflexivity|]. split; [reflexivity|]. exists j. split; [reflexivity|]. split; [lia|reflexivity].
  - cbn [bind]. left. split; [|intros (_ & k & X & Y & _); injection X as <-; lia]. destruct (dmem fns j); [eauto|]. destruct ((hi <? j) || (j <? lo)); eauto. Qed.

(** One candidate. *)
Lemma score_exact m orig fns p lo hi fn a first c : valid_model m -> has_original orig p -> candidate p a c -> In fn (dkeys p) -> d_ignore (c_inst c) = false ->
  let r := score_candidate m (collect new_collector orig) (collect_program (mkWith [] [] []) (plain p)) fns (plain p) lo hi fn a first c in
  ((exists c', r = Ok c') /\ ~ push_stuck fns p a (c_inst c) /\ ~ branch_stuck fns fn (c_inst c)) \/
  (r = Err KeyError /\ (push_stuck fns p a (c_inst c) \/ branch_stuck fns fn (c_inst c))).
Proof. intros M HO Hc Hf Ig. cbv zeta. unfold score_candidate. rewrite Ig. set (i := c_inst c) in *.
  destruct (cond_share orig p HO i (present orig p HO (same_cond i) a c Hc Ig (Z.eqb_refl _))) as (pc & Epc & _).
  destruct (op_share orig p HO i (present orig p HO (same_op i) a c Hc Ig (Z.eqb_refl _))) as (po & Epo & _).
  unfold compute_conditional, compute_opcode. rewrite Epc. cbn [bind]. rewrite Epo. cbn [bind]. match goal with |- context [compute_registers ?a ?b ?c ?d] => set (s1 := d); assert (R : exists s2, compute_registers a b c s1 = Ok s2) end.
  { unfold compute_registers. destruct (d_branch i || pushpop i) eqn:Ebp; [eauto|].
    destruct (reg_fold orig p HO (d_used i)) with (av := 1%Q) as [RA RB]; [|apply prob1|].
    { intros s Hs. apply (present orig p HO (uses s) a c Hc Ig). unfold uses. fold i. destruct (in_dec Z.eq_dec s (d_used i)); [reflexivity|contradiction]. }
    cbv zeta in RA, RB. destruct (all_possible_dec orig (d_used i)) as [D|D].
    - destruct (RA D) as (q & Eq & _). rewrite Eq. cbn [or_zero bind]. eauto.
    - rewrite RB; [cbn [or_zero bind]; eauto|]. clear - D. induction (d_used i) as [|x l IH]; [exfalso; apply D; intros r []|]. destruct (possible_dec orig (uses x)) as [P|P]; [|exists x; cbn; auto].
      destruct IH as (r & I & N); [|exists r; cbn; auto]. intros X. apply D. intros r [<-|I]; [exact P|apply X, I]. }
  destruct R as (s2 & ->). cbn [bind]. destruct (push_pop_exact m orig fns p a fn c HO Hc Hf s2) as [((s3 & E3) & N3)|(E3 & N3)]; fold i in E3, N3; rewrite E3; cbn [bind]; [|right; auto].
  destruct (branch_exact m fns fn lo hi i s3 Ig) as [((s4 & E4) & N4)|(E4 & N4)]; rewrite E4; cbn [bind]; [|right; auto].
  left. split; [|auto]. destruct first; cbn [bind]; [eauto|]. destruct (cfg_spec m M (plain p) a i (compute_register_distance m (collect new_collector orig) (plain p) a i s4)) as (q & _ & ->). cbn [bind]. eauto. Qed.

(** Where the walk over the addresses fails. *)
Lemma mapM_error {A B} (f : A -> result B) l e : mapM f l = Err e -> exists x, In x l /\ f x = Err e.
Proof. induction l as [|x l IH]; cbn [mapM]; [discriminate|]. destruct (f x) as [y|e'] eqn:E; cbn [bind]; [|intros H; exists x; cbn; split; [auto|congruence]].
  destruct (mapM f l) as [ys|e']; cbn [bind]; [discriminate|]. intros H. destruct IH as (z & I & Ez); [congruence|]. exists z. cbn. auto. Qed.
Lemma recover_fails m col w fns prog lo hi e : forall addrs first fn p0, NoDup addrs -> (forall a, In a addrs -> In a (dkeys p0)) ->
  recover_addresses m col w fns prog lo hi fn first addrs p0 = Err e ->
  exists pre a post cs c first', addrs = pre ++ a :: post /\ dget p0 a = Some cs /\ In c cs /\ score_candidate m col w fns prog lo hi (fn_after fns fn (pre ++ [a])) a first' c = Err e.
Proof. induction addrs as [|x addrs IH]; intros first fn p0 N I H; [discriminate|]. cbn [recover_addresses] in H. inversion N as [|? ? Nx N']; subst.
  assert (Ix : In x (dkeys p0)) by (apply I; left; reflexivity). apply dget_some_in in Ix. destruct Ix as (cs & Ecs). unfold dget_r in H. rewrite Ecs in H. cbn [bind] in H.
  set (fn' := if dmem fns x then x else fn) in *. destruct (mapM (score_candidate m col w fns prog lo hi fn' x first) cs) as [cs'|e'] eqn:Em; cbn [bind] in H.
  - destruct (IH false fn' (dset p0 x cs') N') as (pre & a & post & cs1 & c & f1 & E & G & Ic & Es); [intros a Ha; rewrite dkeys_dset; unfold dmem; rewrite Ecs; apply I; right; exact Ha|exact H|].
    exists (x :: pre), a, post, cs1, c, f1. split; [rewrite E; reflexivity|]. assert (a <> x) by (intros ->; apply Nx; rewrite E; apply in_app_iff; right; left; reflexivity). rewrite dget_dset_other in G by assumption. split; [exact G|]. split; [exact Ic|]. exact Es.
  - injection H as ->. destruct (mapM_error _ _ _ Em) as (c & Ic & Ec). exists [], x, addrs, cs, c, first. split; [reflexivity|]. split; [exact Ecs|]. split; [exact Ic|]. exact Ec. Qed.

Lemma current_after fns (p : cprogram) lo rest pre a post : NoDup (dkeys p) -> sort_by (fun a => a) (dkeys p) = lo :: rest -> lo :: rest = pre ++ a :: post -> current_function fns (dkeys p) a (fn_after fns lo (pre ++ [a])).
Proof. intros N Es E. destruct (sorted_keys (dkeys p) N) as (N' & I & S). rewrite Es in N', I, S.
  assert (Lo : forall x, In x (dkeys p) -> lo <= x). { intros x Hx. apply I in Hx. inversion S as [|? ? _ F]; subst. rewrite Forall_forall in F. destruct Hx as [->|Hx]; [lia|apply F, Hx]. }
  assert (Il : In lo (dkeys p)) by (apply I; left; reflexivity). rewrite E in N', I, S. destruct (sorted_split pre post a S N') as (S1 & S2 & S3).
  destruct (fn_after_in fns lo (pre ++ [a])) as [[X Y]|[X Y]].
  - right. rewrite X. split; [|split; [exact Il|exact Lo]]. intros x Hx Ex. destruct (Z.le_gt_cases x a) as [L|L]; [|exact L]. exfalso.
    apply I in Hx. apply in_app_iff in Hx. assert (Hp : In x (pre ++ [a])). { apply in_app_iff. destruct Hx as [Hx|[<-|Hx]]; [left; exact Hx|right; left; reflexivity|specialize (S3 x Hx); lia]. }
    rewrite (Y x Hp) in Ex. discriminate.
  - left. split; [apply I; rewrite in_app_iff in *; cbn [In] in *; tauto|]. split; [exact Y|]. split.
    + apply in_app_iff in X. destruct X as [X|[X|[]]]; [apply S2 in X; lia|lia].
    + intros x Hx Ex L. apply fn_after_last; [exact S1| |exact Ex]. apply I in Hx. apply in_app_iff in Hx. apply in_app_iff.
      destruct Hx as [Hx|[<-|Hx]]; [left; exact Hx|right; left; reflexivity|specialize (S3 x Hx); lia]. Qed.
Lemma current_in fns l a fn : current_function fns l a fn -> In fn l.
Proof. intros [(A & _)|(_ & A & _)]; exact A. Qed.
Lemma current_one fns l a f g : In a l -> current_function fns l a f -> current_function fns l a g -> f = g.
Proof. intros Ia [(A1 & A2 & A3 & A4)|(A1 & A2 & A3)] [(B1 & B2 & B3 & B4)|(B1 & B2 & B3)].
  - specialize (A4 g B1 B2 B3). specialize (B4 f A1 A2 A3). lia.
  - specialize (B1 f A1 A2). lia.
  - specialize (A1 g B1 B2). lia.
  - specialize (A3 g B2). specialize (B3 f A2). lia. Qed.

(** When a pass completes, exactly; it fails in one way. *)
Theorem C142_exactly : forall m orig fns p, valid_model m -> has_original orig p -> all_scored p -> p <> [] ->
  ((exists p', recover m (collect new_collector orig) fns p = Ok p') <-> forall a c, candidate p a c -> ~ stuck fns p a c) /\
  (forall e, recover m (collect new_collector orig) fns p = Err e -> e = KeyError).
Proof. intros m orig fns p M HO HS Ne. pose proof HO as (_ & N & _).
  assert (Er : forall e, recover m (collect new_collector orig) fns p = Err e -> e = KeyError /\ exists a c, candidate p a c /\ stuck fns p a c).
  { intros e H. destruct (sorted_keys (dkeys p) N) as (N' & I & _). destruct (sort_by (fun a => a) (dkeys p)) as [|lo rest] eqn:Es.
    { exfalso. apply Ne. destruct p as [|[k v] p]; [reflexivity|]. exfalso. apply (I k). left; reflexivity. }
    rewrite (recover_unfold m (collect new_collector orig) fns p lo rest Es) in H. destruct (recover_fails _ _ _ _ _ _ _ _ _ _ _ _ N' (fun a Ha => proj1 (I a) Ha) H) as (pre & a & post & cs & c & f1 & E & G & Ic & Ec).
    assert (Hc : candidate p a c) by (exists cs; auto). pose proof (current_after fns p lo rest pre a post N Es E) as Cu. destruct (d_ignore (c_inst c)) eqn:Ig; [unfold score_candidate in Ec; rewrite Ig in Ec; discriminate|].
    destruct (score_exact m orig fns p lo (last (lo :: rest) lo) (fn_after fns lo (pre ++ [a])) a f1 c M HO Hc (current_in _ _ _ _ Cu) Ig) as [((c' & X) & _)|(X & Y)]; [congruence|]. split; [congruence|]. exists a, c. split; [exact Hc|]. split; [exact Ig|].
    destruct Y as [Y|(Y1 & j & Y2 & Y3 & Y4)]; [left; exact Y|right]. split; [exact Y1|]. exists j, (fn_after fns lo (pre ++ [a])). auto. }
  split; [|intros e H; apply (Er e H)]. split.
  - intros (p' & H) a c Hc (Ig & St). destruct (recover_spec m (collect new_collector orig) fns p N) as [B _]. destruct (B p' H) as (lo & hi & _ & _ & _ & _ & _ & F). destruct Hc as (cs & G & I). destruct (F a cs G) as (fn & first & cs' & Cu & _ & _ & F2).
    destruct (forall2_in_l _ _ _ F2 c I) as (c' & _ & Ec). assert (Hc : candidate p a c) by (exists cs; auto).
    destruct (score_exact m orig fns p lo hi fn a first c M HO Hc (current_in _ _ _ _ Cu) Ig) as [(_ & X & Y)|(X & _)]; [|cbv zeta in Ec; congruence].
    destruct St as [St|(S1 & j & fn' & S2 & S3 & S4)]; [contradiction|]. apply Y. assert (Ia : In a (dkeys p)) by (apply dget_some_in; eauto). assert (fn' = fn) as -> by (eapply current_one; [exact Ia|exact S3|exact Cu]). split; [exact S1|]. exists j. auto.
  - intros H. destruct (recover m (collect new_collector orig) fns p) as [p'|e] eqn:R; [eauto|]. exfalso. destruct (Er e eq_refl) as (_ & a & c & Hc & St). exact (H a c Hc St). Qed.
Print Assumptions C142_exactly.

(** Functions whose instructions lie four apart, one after the other, and candidates at
    the addresses of those instructions: every pass completes. *)
Definition in_a_row (f : IoModel.fn) : Prop := forall k i, nth_error f k = Some i -> IoModel.address i = IoModel.start_addr f + 4 * Z.of_nat k.
Lemma row_addresses f : in_a_row f -> f <> [] -> forall x, In x (map IoModel.address f) <-> IoModel.start_addr f <= x <= IoModel.final_addr f /\ (IoModel.final_addr f - x) mod 4 = 0.
Proof. intros R Ne x. assert (Fa : IoModel.final_addr f = IoModel.start_addr f + 4 * Z.of_nat (length f) - 4) by (destruct f; [contradiction|reflexivity]). rewrite Fa. set (s := IoModel.start_addr f) in *. split.
  - intros H. apply in_map_iff in H. destruct H as (i & <- & I). apply In_nth_error in I. destruct I as (k & Hk). assert (Lk : (k < length f)%nat) by (apply nth_error_Some; congruence). rewrite (R k i Hk). fold s. split; [lia|].
    replace (s + 4 * Z.of_nat (length f) - 4 - (s + 4 * Z.of_nat k)) with ((Z.of_nat (length f) - 1 - Z.of_nat k) * 4) by lia. apply Z.mod_mul. lia.
  - intros ((A & B) & M). pose proof (Z.div_mod (s + 4 * Z.of_nat (length f) - 4 - x) 4 ltac:(lia)) as D. rewrite M in D. set (d := (s + 4 * Z.of_nat (length f) - 4 - x) / 4) in *.
    assert (H : exists i, nth_error f (length f - 1 - Z.to_nat d) = Some i). { destruct (nth_error f (length f - 1 - Z.to_nat d)) as [i|] eqn:E; [eauto|]. apply nth_error_None in E. assert (length f <> O) by (destruct f; [contradiction|discriminate]). lia. }
    destruct H as (i & Hi). apply in_map_iff. exists i. split; [|eapply nth_error_In, Hi]. rewrite (R _ _ Hi). fold s. lia. Qed.

Theorem C142_table : forall m fns orig p, valid_model m -> has_original orig p -> all_scored p -> p <> [] -> (forall f, In f fns -> in_a_row f) ->
  let '(originals, table) := IoModel.functions_to_list fns in
  (forall a, In a (dkeys p) <-> In a (map IoModel.address originals)) ->
  exists p', recover m (collect new_collector orig) table p = Ok p'.
Proof. intros m fns orig p M HO HS Ne R. pose proof (IoProps.C71_functions fns) as C. destruct (IoModel.functions_to_list fns) as [originals table]. destruct C as (P & _ & _ & T). intros K. apply C142_exactly; [exact M|exact HO|exact HS|exact Ne|].
  assert (In_f : forall f x, In f fns -> In x (map IoModel.address f) -> In x (dkeys p)).
  { intros f x Hf Hx. apply K. apply in_map_iff in Hx. destruct Hx as (i & <- & I). apply in_map. eapply Permutation_in; [apply Permutation_sym, P|]. apply in_concat. eauto. }
  intros a c Hc (Ig & St). assert (Ha : In a (dkeys p)) by (destruct Hc as (cs & G & _); apply dget_some_in; eauto). destruct St as [(_ & first & last & G & St)|(_ & j & fn & _ & Cu & _ & D)].
  - apply T in G. destruct G as (f & l1 & l2 & -> & Sf & _ & E). injection E as -> ->. assert (Hf : In f (l1 ++ f :: l2)) by (apply in_app_iff; right; left; reflexivity). destruct f as [|i f].
    { cbn in Sf, St. subst a. destruct St as [St|(x & (((A & B) & _) & _))]; [contradiction|lia]. }
    assert (Ro := row_addresses (i :: f) (R _ Hf) ltac:(discriminate)). rewrite Sf in Ro. assert (Fa : a <= IoModel.final_addr (i :: f)) by (rewrite <- Sf; unfold IoModel.start_addr, IoModel.final_addr; cbn [length]; lia).
    destruct St as [St|(x & ((A & B) & X & _))].
    + apply St, (In_f _ _ Hf), Ro. rewrite Z.sub_diag. split; [lia|reflexivity].
    + apply X, (In_f _ _ Hf), Ro. split; [lia|exact B].
  - destruct Cu as [(_ & X & _)|(_ & Il & Lo)]; [congruence|]. pose proof Il as Il0. apply K in Il0. apply in_map_iff in Il0. destruct Il0 as (i & Ei & I). eapply Permutation_in in I; [|exact P]. apply in_concat in I. destruct I as (f & Hf & I).
    assert (Nf : f <> []) by (intros ->; destruct I). assert (Ro := row_addresses f (R f Hf) Nf).
    assert (S : In (IoModel.start_addr f) (map IoModel.address f)) by (destruct f as [|i0 f]; [contradiction|left; reflexivity]). assert (L1 : fn <= IoModel.start_addr f) by (apply Lo, (In_f f); assumption). assert (L2 : IoModel.start_addr f <= fn) by (apply Ro; rewrite <- Ei; apply in_map, I).
    assert (Eq : IoModel.start_addr f = fn) by lia. clear - D Eq Hf T. assert (H : exists se, dget table fn = Some se); [|destruct H as (se & H); unfold dmem in D; rewrite H in D; discriminate].
    clear D. assert (X : exists g l1 l2, fns = l1 ++ g :: l2 /\ IoModel.start_addr g = fn /\ forall h, In h l2 -> IoModel.start_addr h <> fn).
    { clear T. induction fns as [|g fns IH]; [destruct Hf|]. destruct (existsb (fun h => IoModel.start_addr h =? fn) fns) eqn:E.
      - apply existsb_exists in E. destruct E as (h & Hh & E). assert (Hx : exists g l1 l2, fns = l1 ++ g :: l2 /\ IoModel.start_addr g = fn /\ forall h, In h l2 -> IoModel.start_addr h <> fn).
        { clear - Hh E. revert h Hh E. induction fns as [|g fns IH]; intros h Hh E; [destruct Hh|]. destruct (existsb (fun h => IoModel.start_addr h =? fn) fns) eqn:E2.
          - apply existsb_exists in E2. destruct E2 as (h2 & H2 & E2). destruct (IH h2 H2 E2) as (g0 & l1 & l2 & -> & B & C). exists g0, (g :: l1), l2. auto.
          - destruct Hh as [->|Hh]; [|exfalso; assert (existsb (fun h => IoModel.start_addr h =? fn) fns = true) by (apply existsb_exists; eauto); congruence]. exists h, [], fns. split; [reflexivity|]. split; [lia|]. intros h2 H2 E3. assert (existsb (fun h => IoModel.start_addr h =? fn) fns = true) by (apply existsb_exists; exists h2; split; [exact H2|lia]). congruence. }
        destruct Hx as (g0 & l1 & l2 & -> & B & C). exists g0, (g :: l1), l2. auto.
      - destruct Hf as [->|Hf]; [|exfalso; assert (existsb (fun h => IoModel.start_addr h =? fn) fns = true) by (apply existsb_exists; exists f; split; [exact Hf|lia]); congruence]. exists f, [], fns. split; [reflexivity|]. split; [exact Eq|]. intros h2 H2 E3. assert (existsb (fun h => IoModel.start_addr h =? fn) fns = true) by (apply existsb_exists; exists h2; split; [exact H2|lia]). congruence. }
    destruct X as (g & l1 & l2 & A & B & C). exists (fn, IoModel.final_addr g). apply T. exists g, l1, l2. auto. Qed.
Print Assumptions C142_table.

(** A function of four words of which only three have candidates: with nothing at 4 the
    pop at the end is seen first and the pass completes; with nothing at 8 it fails.
    A function whose last address has no candidates fails too. *)
Definition put_at (a : Z) (i : dinst) : dinst := mkD (d_enc i) a (d_ignore i) (d_cond i) (d_op i) (d_used i) (d_written i) (d_read i) (d_rwritten i) (d_rread i) (d_branch i) (d_kind i) (d_jump i).
Definition gap_orig (x : Z) : list dinst := [o_push; put_at x o_add; put_at 12 o_pop].
Definition gap_program (x : Z) : cprogram := [(0, [fresh o_push; fresh (nth 0 o_other o_add)]); (x, [fresh (put_at x o_add)]); (12, [fresh (put_at 12 o_pop)])].
Lemma gap_original x : x = 4 \/ x = 8 -> has_original (gap_orig x) (gap_program x) /\ all_scored (gap_program x).
Proof. intros [-> | ->]; (split; [split; [nodup|split; [nodup|split]]|]).
  1, 4: intros o [<-|[<-|[<-|[]]]]; [original_here o_push|original_here (put_at 4 o_add) || original_here (put_at 8 o_add)|original_here (put_at 12 o_pop)].
  1, 3: intros a [<-|[<-|[<-|[]]]]; [exists o_push|exists (put_at 4 o_add) + exists (put_at 8 o_add)|exists (put_at 12 o_pop)]; (split; [cbn; tauto|reflexivity]).
  all: apply unscored; intros a c Hc; apply candidate_in in Hc; [|nodup]; destruct Hc as (cs & I & J); cbn in I; repeat destruct I as [I|I]; try injection I as <- <-; try contradiction; cbn in J; repeat destruct J as [<-|J]; try contradiction; reflexivity. Qed.
Example C142_example : valid_model default_model /\ has_original (gap_orig 8) (gap_program 8) /\ all_scored (gap_program 8) /\
  (exists p', recover default_model (collect new_collector (gap_orig 8)) [(0, (0, 12))] (gap_program 8) = Ok p') /\
  has_original (gap_orig 4) (gap_program 4) /\ all_scored (gap_program 4) /\ stuck [(0, (0, 12))] (gap_program 4) 0 (fresh o_push) /\
  recover default_model (collect new_collector (gap_orig 4)) [(0, (0, 12))] (gap_program 4) = Err KeyError /\
  recover default_model (collect new_collector small_orig) [(0, (0, 12))] small = Err KeyError /\
  (exists p', recover default_model (collect new_collector small_orig) (snd (IoModel.functions_to_list [[(100, 0); (101, 4); (102, 8)]])) small = Ok p') /\ in_a_row [(100, 0); (101, 4); (102, 8)].
Proof. split; [exact default_valid|]. destruct (gap_original 8) as [A1 A2]; [auto|]. destruct (gap_original 4) as [B1 B2]; [auto|]. split; [exact A1|]. split; [exact A2|]. split; [eexists; vm_compute; reflexivity|]. split; [exact B1|]. split; [exact B2|].
  split; [|split; [vm_compute; reflexivity|split; [vm_compute; reflexivity|split; [eexists; vm_compute; reflexivity|]]]].
  - split; [reflexivity|]. left. split; [reflexivity|]. exists 0, 12. split; [reflexivity|]. right. exists 8. split; [split; [lia|reflexivity]|]. split; [cbn; lia|]. intros (_ & z & ((_ & W) & _) & L & _). lia.
  - intros [|[|[|k]]] i H; cbn in H; try (injection H as <-; reflexivity). destruct k; discriminate. Qed.
