(** C145: what a pass of the recovery says about pushes and pops. *)
From Verif Require Import ListLemmas FlipModel InstModel MetaModel MetaSpec RecModel RecSpec RecProofs RecProofs2 RecProofs3 RecProps OutcomeProps.
From Coq Require Import ZifyBool ZifyNat Lqa.

(** ** Specification *)
Definition is_push (i : dinst) : bool := match d_kind i with KPush => true | _ => false end.
(** The same registers, but for the return address (pushed from lr = 14, popped into
    pc = 15) and the stack pointer 13. *)
Definition alike (popped pushed : list Z) : Prop := (forall r, In r popped -> In r pushed \/ r = 15) /\ (forall r, In r pushed -> In r popped \/ r = 14 \/ r = 13).
Definition greatest (q : Q) (l : list Q) : Prop := In q l /\ forall x, In x l -> (x <= q)%Q.
(** [q] if [P] holds, [q'] if not. *)
Definition either (P : Prop) (q q' x : Q) : Prop := (P /\ (x == q)%Q) \/ (~ P /\ (x == q')%Q).
(** The function starting at [a] and ending at [last] has a pop somewhere and a branch
    somewhere above its first two instructions. *)
Definition pop_and_branch (p : cprogram) (a last : Z) : Prop :=
  (exists y, within a last y /\ offers_at p y is_pop) /\ exists z, within a last z /\ a + 4 < z /\ offers_at p z d_branch.
Definition share (cs : list cand) : Q := (1 / inject_Z (Z.of_nat (length cs)))%Q.
(** The value for candidate [i] among [cs] at [a], in the function [fn]. *)
Definition stack_value (m : pmodel) (fns : functions) (p : cprogram) (fn a : Z) (cs : list cand) (i : dinst) (q : Q) : Prop :=
  match d_kind i with
  | KPush =>
      match dget fns a with
      | Some (_, last) => exists e1 e2 e3, greatest q [e1; e2; e3] /\
          either (offers_at p last is_pop) (pop_end m) 0 e1 /\ either (pop_and_branch p a last) (pop_middle m) 0 e2 /\
          either (exists c, candidate p last c /\ d_ignore (c_inst c) = false /\ is_pop (c_inst c) = true /\ alike (d_rwritten (c_inst c)) (d_rread i)) (pop_end_equal m) (share cs) e3
      | None => (q == share cs)%Q
      end
  | KPop => exists e1 e3, greatest q [e1; 0%Q; e3] /\ either (offers_at p fn is_push) (pop_end m) 0 e1 /\
      either (exists c, candidate p fn c /\ d_ignore (c_inst c) = false /\ is_push (c_inst c) = true /\ alike (d_rwritten (c_inst c)) (d_rwritten i)) (pop_end_equal m) (share cs) e3
  | KOther => True
  end.

(** *** Proof *)
Lemma alike_spec a b : equal_registers a b = true <-> alike a b.
Proof.
  unfold equal_registers, alike, PC, LR, SP. rewrite andb_true_iff, !forallb_forall.
  assert (Z : forall x l, zmem x l = true <-> In x l) by (intros x l; unfold zmem; rewrite existsb_exists; split; [intros (y & I & E); replace x with y by lia; exact I|intros I; exists x; split; [exact I|lia]]).
  split; intros [A B]; split; intros r I.
  - specialize (A r I). rewrite orb_true_iff, Z in A. destruct A; [auto|right; lia].
  - specialize (B r I). rewrite !orb_true_iff, Z in B. destruct B as [[B|B]|B]; [auto|right; left; lia|right; right; lia].
  - rewrite orb_true_iff, Z. destruct (A r I); [auto|right; lia].
  - rewrite !orb_true_iff, Z. destruct (B r I) as [X|[X|X]]; [auto|left; right; lia|right; lia].
Qed.
Lemma op_counts k regs l : forall c t e, 0 <= c -> c <= t -> let '(c', t', e') := fold_left (op_step k regs) l (c, t, e) in
  c <= c' <= t' /\ (0 < c' <-> 0 < c \/ exists i, In i l /\ d_ignore i = false /\ same_kind (d_kind i) k = true) /\
  (e' = true <-> e = true \/ exists i, In i l /\ d_ignore i = false /\ same_kind (d_kind i) k = true /\ equal_registers (d_rwritten i) regs = true).
Proof.
  induction l as [|x l IH]; intros c t e Hc Ht; [cbn; split; [lia|]; split; (split; [auto|intros [X|(i & [] & _)]; exact X])|]. cbn [fold_left]. unfold op_step at 2. destruct (d_ignore x) eqn:Ig; [|destruct (same_kind (d_kind x) k) eqn:Ek].
  - specialize (IH c t e Hc Ht). destruct (fold_left (op_step k regs) l (c, t, e)) as [[c' t'] e']. destruct IH as (A & B & C). split; [exact A|]. rewrite B, C. split; (split; [intros [X|(i & I & Y)]; [auto|right; exists i; cbn; auto]|intros [X|(i & [<-|I] & Y & Z)]; [auto|congruence|right; exists i; auto]]).
  - specialize (IH (c + 1) (t + 1) (e || equal_registers (d_rwritten x) regs)). destruct (fold_left (op_step k regs) l _) as [[c' t'] e']. destruct IH as (A & B & C); [lia|lia|]. split; [lia|]. rewrite B, C. split; split.
    + intros _. right. exists x. cbn. auto.
    + intros _. left. lia.
    + rewrite orb_true_iff. intros [[X|X]|(i & I & Y)]; [auto|right; exists x; cbn; auto|right; exists i; cbn; auto].
    + rewrite orb_true_iff. intros [X|(i & [<-|I] & Y & Y2 & Z)]; [auto|auto|right; exists i; auto].
  - specialize (IH c (t + 1) e). destruct (fold_left (op_step k regs) l _) as [[c' t'] e']. destruct IH as (A & B & C); [lia|lia|]. split; [lia|]. rewrite B, C. split; (split; [intros [X|(i & I & Y)]; [auto|right; exists i; cbn; auto]|]).
    + intros [X|(i & [<-|I] & Y & Z)]; [auto|congruence|right; exists i; auto].
    + intros [X|(i & [<-|I] & Y & Z & R)]; [auto|congruence|right; exists i; auto].
Qed.
Lemma quot_pos c t q : 0 <= c -> c <= t -> quot c t = Ok q -> (qlt 0 q = true <-> 0 < c) /\ (qlt 0 q = false -> q = 0%Q \/ (q == 0)%Q).
Proof.
  intros Hc Ht. unfold quot. destruct (t =? 0) eqn:E; [discriminate|]. intros H. assert (q = (inject_Z c / inject_Z t)%Q) as -> by congruence.
  assert (P : forall z, 0 < z -> (0 < inject_Z z)%Q) by (intros z Hz; change 0%Q with (inject_Z 0); rewrite <- Zlt_Qlt; exact Hz).
  destruct (Z.eq_dec c 0) as [->|N].
  - assert (X : (inject_Z 0 / inject_Z t == 0)%Q) by (unfold Qdiv; change (inject_Z 0) with 0%Q; ring). destruct (qlt_spec 0 (inject_Z 0 / inject_Z t)%Q) as [L|L]; [rewrite X in L; destruct (Qlt_irrefl 0 L)|]. split; [split; [discriminate|lia]|auto].
  - destruct (qlt_spec 0 (inject_Z c / inject_Z t)%Q) as [L|L]; [split; [split; [lia|reflexivity]|discriminate]|]. exfalso. apply L. unfold Qdiv. apply Qmult_lt_0_compat; [|apply Qinv_lt_0_compat]; apply P; lia.
Qed.
Lemma walk_positive p : forall addrs cb cp t p2 q, 0 <= cb -> 0 <= cp -> cb <= t -> cp <= t -> qlt 0 p2 = false ->
  walk_down (plain p) addrs cb cp t p2 = Ok q -> (qlt 0 q = true <-> stops p cb cp addrs).
Proof.
  induction addrs as [|x addrs IH]; intros cb cp t p2 q H1 H2 H3 H4 H6.
  - cbn [walk_down]. intros [= ->]. rewrite H6. split; [discriminate|]. intros (u & y & v & E & _). destruct u; discriminate.
  - cbn [walk_down]. unfold dget_r. destruct (dget (plain p) x) as [l|] eqn:G; [|discriminate].
    cbn [bind]. pose proof (walk_fold l cb cp t H1 H2 H3 H4) as W. change (fold_left _ l (cb, cp, t)) with (fold_left walk_step l (cb, cp, t)). destruct (fold_left walk_step l (cb, cp, t)) as [[cb' cp'] t']. destruct W as (A & B & C & D & E). cbv zeta.
    rewrite <- (offers_get p x d_branch l G) in D. rewrite <- (offers_get p x is_pop l G) in E.
    assert (V : qlt 0 (if (0 <? t) && (0 <? t') then (inject_Z cp' / inject_Z t' * inject_Z cb / inject_Z t)%Q else p2) = true <-> 0 < cp' /\ 0 < cb).
    { destruct ((0 <? t) && (0 <? t')) eqn:Et; [apply walk_value; lia|]. rewrite H6. split; [discriminate|]. intros [X Y]. lia. }
    match type of V with (qlt 0 ?q = true <-> _) => set (v2 := q) in *; destruct (qlt 0 v2) eqn:Eq end.
    + intros Hq. assert (q = v2) as -> by congruence. rewrite Eq. split; [intros _|reflexivity]. destruct V as [V _]. destruct (V eq_refl) as [V1 V2]. exists [], x, addrs. split; [reflexivity|]. split; [|left; exact V2]. apply E in V1. destruct V1 as [V1|V1]; [left; exact V1|right; exists x; cbn; auto].
    + assert (Nv : ~ (0 < cp' /\ 0 < cb)) by (intros X; apply V in X; discriminate). intros Hq. rewrite (IH cb' cp' t' v2 q) by (auto; lia). split.
      * intros (u & y & v & -> & S1 & S2). exists (x :: u), y, v. split; [reflexivity|]. split.
        -- destruct S1 as [S1|(z & I & S1)]; [apply E in S1; destruct S1 as [S1|S1]; [auto|right; exists x; cbn; auto]|right; exists z; cbn; auto].
        -- destruct S2 as [S2|(z & I & S2)]; [apply D in S2; destruct S2 as [S2|S2]; [auto|right; exists x; cbn; auto]|right; exists z; cbn; auto].
      * intros (u & y & v & Ep & S1 & S2). destruct u as [|u0 u]; cbn in Ep; injection Ep as <- ->.
        -- exfalso. apply Nv. split; [apply E; destruct S1 as [S1|(z & [<-|[]] & S1)]; auto|destruct S2 as [S2|(z & [] & _)]; exact S2].
        -- exists u, y, v. split; [reflexivity|]. split; [destruct S1 as [S1|(z & [<-|I] & S1)]; [left; lia|left; tauto|right; eauto]|destruct S2 as [S2|(z & [<-|I] & S2)]; [left; lia|left; tauto|right; eauto]].
Qed.
Lemma stops_all p a last : stops p 0 0 (down_range last a) <-> pop_and_branch p a last.
Proof.
  unfold pop_and_branch. split.
  - intros (u & y & v & E & S1 & S2). destruct S1 as [S1|(z1 & I1 & O1)]; [lia|]. destruct S2 as [S2|(z2 & I2 & O2)]; [lia|]. split.
    + exists z1. split; [|exact O1]. apply down_in. rewrite E. rewrite in_app_iff in *. cbn [In] in *. tauto.
    + apply (down_split _ _ _ _ _ E) in I2 as [W2 L]. exists z2. split; [exact W2|]. split; [|exact O2]. assert (Wy : within a last y) by (apply down_in; rewrite E; apply in_app_iff; right; left; reflexivity).
      clear - W2 L Wy. unfold within in *. destruct Wy as [Y1 Y2], W2 as [_ W2]. pose proof (Z.div_mod (last - y) 4). pose proof (Z.div_mod (last - z2) 4). lia.
  - intros ((y & Wy & Oy) & (z & Wz & Lz & Oz)). apply down_in in Wy. destruct (exists_last (l := down_range last a)) as (u & w & E); [intros X; rewrite X in Wy; destruct Wy|].
    exists u, w, []. split; [exact E|]. split; [right; exists y; split; [rewrite <- E; exact Wy|exact Oy]|]. right. exists z. split; [|exact Oz]. apply (down_split _ _ _ _ _ E). split; [exact Wz|].
    assert (I : In (z - 4) (u ++ [w])). { rewrite <- E. apply down_in. clear - Wz Lz. unfold within in *. destruct Wz as [W1 W2]. split; [lia|]. replace (last - (z - 4)) with (last - z + 1 * 4) by lia. rewrite Z.mod_add by lia. exact W2. }
    apply in_app_iff in I as [I|[I|[]]]; [|lia]. apply (down_split _ _ _ _ _ E) in I. lia.
Qed.
Lemma op_offers p k x regs q e : op_prob (plain p) k x regs = Ok (q, e) ->
  ((qlt 0 q = true <-> offers_at p x (fun i => same_kind (d_kind i) k)) /\ (qlt 0 q = false -> (q == 0)%Q)) /\
  (e = true <-> exists c, candidate p x c /\ d_ignore (c_inst c) = false /\ same_kind (d_kind (c_inst c)) k = true /\ alike (d_rwritten (c_inst c)) regs).
Proof.
  unfold op_prob, dget_r. destruct (dget (plain p) x) as [l|] eqn:G; [|discriminate]. cbn [bind]. change (fold_left _ l (0, 0, false)) with (fold_left (op_step k regs) l (0, 0, false)). pose proof (op_counts k regs l 0 0 false ltac:(lia) ltac:(lia)) as W.
  destruct (fold_left (op_step k regs) l (0, 0, false)) as [[c t] e']. destruct W as (A & B & C). destruct (quot c t) as [q'|] eqn:Eq; [|discriminate]. cbn [bind]. intros [= -> ->]. destruct (quot_pos c t q ltac:(lia) ltac:(lia) Eq) as [P Z]. split; [split|].
  - rewrite P, B, (offers_get p x _ l G). split; [intros [X|X]; [lia|exact X]|auto].
  - intros X. destruct (Z X) as [->|Y]; [reflexivity|exact Y].
  - rewrite C. rewrite plain_get in G. destruct (dget p x) as [cs|] eqn:Ex; [|discriminate]. cbn in G. injection G as <-. split.
    + intros [X|(i & I & Ig & K & R)]; [discriminate|]. apply in_map_iff in I as (c0 & <- & I). exists c0. split; [exists cs; auto|]. split; [exact Ig|]. split; [exact K|]. now apply alike_spec.
    + intros (c0 & (cs' & G' & I) & Ig & K & R). assert (cs' = cs) as -> by congruence. right. exists (c_inst c0). split; [apply in_map, I|]. split; [exact Ig|]. split; [exact K|]. now apply alike_spec.
Qed.
Lemma qmax_greatest a b c : greatest (qmax (qmax a b) c) [a; b; c].
Proof.
  assert (M : forall x y, (qmax x y = x \/ qmax x y = y) /\ (x <= qmax x y)%Q /\ (y <= qmax x y)%Q).
  { intros x y. unfold qmax. destruct (qlt_spec x y) as [L|L]; [|apply Qnot_lt_le in L]; (split; [auto|]); split; lra. }
  destruct (M (qmax a b) c) as (E & L1 & L2). destruct (M a b) as (E' & L3 & L4). split.
  - cbn [In]. destruct E as [->| ->]; [destruct E' as [->| ->]; auto|auto].
  - intros x [<-|[<-|[<-|[]]]]; lra.
Qed.
Lemma either_if (b : bool) (P : Prop) q q' q0 : (b = true <-> P) -> (b = false -> (q0 == q')%Q) -> either P q q' (if b then q else q0).
Proof. intros H F. destruct b; [left; split; [now apply H|reflexivity]|right; split; [intros X; apply H in X; discriminate|auto]]. Qed.
Lemma offers_ext p x f g : (forall i, f i = g i) -> (offers_at p x f <-> offers_at p x g).
Proof. intros E. unfold offers_at. split; intros (c & A & B & C); exists c; (split; [exact A|]); split; auto; [rewrite <- E|rewrite E]; exact C. Qed.
Lemma push_kind i : is_push i = same_kind (d_kind i) KPush.
Proof. unfold is_push. destruct (d_kind i); reflexivity. Qed.
Lemma share_quot cs : cs <> [] -> exists q, quot 1 (Z.of_nat (length cs)) = Ok q /\ (q == share cs)%Q /\ (0 < q)%Q.
Proof.
  intros N. unfold quot. assert (L : 0 < Z.of_nat (length cs)) by (destruct cs; [congruence|cbn [length]; lia]). replace (Z.of_nat (length cs) =? 0) with false by lia. eexists. split; [reflexivity|]. split; [reflexivity|].
  unfold Qdiv. apply Qmult_lt_0_compat; [reflexivity|]. apply Qinv_lt_0_compat. change 0%Q with (inject_Z 0). rewrite <- Zlt_Qlt. exact L.
Qed.
Lemma finish_value m p a cs s p1 p2 e s' : dget p a = Some cs -> cs <> [] -> finish_push_pop m (plain p) a s p1 p2 e = Ok s' ->
  exists q3, (q3 == share cs)%Q /\ (0 < q3)%Q /\ s' = dset s Kpopu (qmax (qmax (if qlt 0 p1 then pop_end m else p1) (if qlt 0 p2 then pop_middle m else p2)) (if e then pop_end_equal m else q3)).
Proof.
  intros G N. unfold finish_push_pop, dget_r. rewrite plain_get, G. cbn [option_map bind]. rewrite map_length. destruct (share_quot cs N) as (q3 & -> & A & B). cbn [bind]. intros [= <-]. exists q3. auto.
Qed.
Lemma walk_nonneg prog : forall addrs cb cp t p2 q, 0 <= cb -> 0 <= cp -> cb <= t -> cp <= t -> (0 <= p2)%Q -> walk_down prog addrs cb cp t p2 = Ok q -> (0 <= q)%Q.
Proof.
  induction addrs as [|x addrs IH]; intros cb cp t p2 q H1 H2 H3 H4 H6; cbn [walk_down]; [intros [= <-]; exact H6|]. unfold dget_r. destruct (dget prog x) as [l|]; [|discriminate]. cbn [bind].
  pose proof (walk_fold l cb cp t H1 H2 H3 H4) as W. change (fold_left _ l (cb, cp, t)) with (fold_left walk_step l (cb, cp, t)). destruct (fold_left walk_step l (cb, cp, t)) as [[cb' cp'] t']. destruct W as (A & B & C & _). cbv zeta.
  assert (V : (0 <= if (0 <? t) && (0 <? t') then (inject_Z cp' / inject_Z t' * inject_Z cb / inject_Z t)%Q else p2)%Q).
  { destruct ((0 <? t) && (0 <? t')); [|exact H6]. assert (P : forall z, 0 <= z -> (0 <= inject_Z z)%Q) by (intros z Hz; change 0%Q with (inject_Z 0); rewrite <- Zle_Qle; exact Hz).
    unfold Qdiv. repeat apply Qmult_le_0_compat; try apply Qinv_le_0_compat; apply P; lia. }
  match type of V with (0 <= ?q)%Q => set (v2 := q) in *; destruct (qlt 0 v2) end; [intros H; assert (q = v2) as -> by congruence; exact V|]. apply IH; auto; lia.
Qed.
Lemma stack_spec m fns p a fn cs i s s' : dget p a = Some cs -> cs <> [] -> compute_push_pop m (plain p) fns a fn i s = Ok s' ->
  (d_kind i = KOther /\ s' = s) \/ (d_kind i <> KOther /\ exists q, s' = dset s Kpopu q /\ stack_value m fns p fn a cs i q).
Proof.
  intros G N H. unfold compute_push_pop in H. unfold stack_value. cbv zeta in H. destruct (d_kind i).
  - right. split; [discriminate|]. destruct (dget fns a) as [[first last]|].
    + destruct (op_prob (plain p) KPop last (d_rread i)) as [[p1 e]|] eqn:Eo; [|discriminate]. cbn [bind] in H. destruct (walk_down (plain p) (down_range last a) 0 0 0 0%Q) as [p2|] eqn:Ew; [|discriminate]. cbn [bind] in H.
      destruct (finish_value _ _ _ _ _ _ _ _ _ G N H) as (q3 & S3 & P3 & ->). eexists. split; [reflexivity|]. do 3 eexists. split; [apply qmax_greatest|]. destruct (op_offers _ _ _ _ _ _ Eo) as ((O1 & O2) & O3). split; [|split].
      * apply either_if; [|exact O2]. rewrite O1. apply offers_ext. intros j. symmetry. apply pop_kind.
      * apply either_if; [rewrite (walk_positive p (down_range last a) 0 0 0 0%Q p2) by (auto; lia); apply stops_all|]. intros X. assert (Y : (0 <= p2)%Q) by (refine (walk_nonneg _ _ _ _ _ _ _ _ _ _ _ _ Ew); try lia; lra). destruct (qlt_spec 0 p2) as [L|L]; [discriminate|]. apply Qnot_lt_le in L. lra.
      * apply either_if; [|auto]. rewrite O3. split; intros (c & A & B & C & D); exists c; (split; [exact A|]); (split; [exact B|]); (split; [|exact D]); [rewrite pop_kind|rewrite <- pop_kind]; exact C.
    + destruct (finish_value _ _ _ _ _ _ _ _ _ G N H) as (q3 & S3 & P3 & ->). eexists. split; [reflexivity|]. cbn [qlt]. rewrite <- S3. change (qlt 0 0) with false. cbv iota. change (qmax 0 0) with 0%Q. unfold qmax. destruct (qlt_spec 0 q3) as [L|L]; [reflexivity|destruct (L P3)].
  - right. split; [discriminate|]. destruct (op_prob (plain p) KPush fn (d_rwritten i)) as [[p1 e]|] eqn:Eo; [|discriminate]. cbn [bind] in H. destruct (finish_value _ _ _ _ _ _ _ _ _ G N H) as (q3 & S3 & P3 & ->). eexists. split; [reflexivity|].
    destruct (op_offers _ _ _ _ _ _ Eo) as ((O1 & O2) & O3). do 2 eexists. change (qlt 0 0) with false. cbv iota. split; [apply qmax_greatest|]. split.
    + apply either_if; [|exact O2]. rewrite O1. apply offers_ext. intros j. symmetry. apply push_kind.
    + apply either_if; [|auto]. rewrite O3. split; intros (c & A & B & C & D); exists c; (split; [exact A|]); (split; [exact B|]); (split; [|exact D]); [rewrite push_kind|rewrite <- push_kind]; exact C.
  - left. split; [reflexivity|congruence].
Qed.

Lemma Forall2_weaken {A B} (R S : A -> B -> Prop) l l' : (forall x y, R x y -> S x y) -> Forall2 R l l' -> Forall2 S l l'.
Proof. intros H F. induction F; constructor; auto. Qed.

(** ** C145 *)
(** What the claim says is evidence of a push and a pop that belong together. *)
Definition pop_then_branch (p : cprogram) (a last : Z) : Prop := exists y z, within a last y /\ within a last z /\ y <= z /\ offers_at p y is_pop /\ offers_at p z d_branch.
(** A push, at the start of a function, gets the probability of a pop inside the function
    though no pop is followed by a branch; and a pop of just the register pushed at the start
    of its function gets nothing for it. *)
Definition plain_of (a : Z) := mkCand (mkD (a + 1) a false 14 21 [4] [4] [] [4] [] false KOther None) [] AddScore.
Definition branch_of (a : Z) := mkCand (mkD (a + 2) a false 14 30 [15] [15] [] [15] [] true KOther (Some 0)) [] AddScore.
Definition push_of (a r : Z) := mkCand (mkD (a + 3) a false 14 40 [13; r; 16] [16] [r; 13] [] [r; 13] false KPush None) [] AddScore.
Definition pop_of (a r : Z) := mkCand (mkD (a + 4) a false 14 41 [13; r] [13; r] [13] [13; r] [13] false KPop None) [] AddScore.
Definition ex_middle : cprogram := [(0, [push_of 0 4; plain_of 0]); (4, [plain_of 4]); (8, [branch_of 8]); (12, [pop_of 12 4]); (16, [plain_of 16])].
Definition ex_pair : cprogram := [(0, [push_of 0 4]); (4, [pop_of 4 4; plain_of 4])].
Theorem C145_stack_refuted :
  (exists p', recover default_model new_collector [(0, (0, 16))] ex_middle = Ok p' /\ ~ pop_then_branch ex_middle 0 16 /\
     option_map (fun cs => map (fun c => dget (c_scores c) Kpopu) cs) (dget p' 0) = Some [Some (pop_middle default_model); None]) /\
  (exists p', recover default_model new_collector [(0, (0, 4))] ex_pair = Ok p' /\ d_rread (c_inst (push_of 0 4)) = [4; 13] /\ d_rwritten (c_inst (pop_of 4 4)) = [13; 4] /\
     option_map (fun cs => map (fun c => dget (c_scores c) Kpopu) cs) (dget p' 4) = Some [Some (pop_end default_model); None]).
Proof.
  split; (eexists; split; [vm_compute; reflexivity|]); [split; [|vm_compute; reflexivity]|split; [reflexivity|split; [reflexivity|vm_compute; reflexivity]]].
  intros (y & z & Wy & Wz & L & (c & (cs & G & I) & _ & P) & (c' & (cs' & G' & I') & _ & P')).
  assert (Y : y = 4 \/ y = 8 \/ y = 12 \/ y = 16) by (destruct Wy as [Wy M]; pose proof (Z.div_mod (16 - y) 4); lia). assert (Z : z = 4 \/ z = 8 \/ z = 12 \/ z = 16) by (destruct Wz as [Wz M]; pose proof (Z.div_mod (16 - z) 4); lia).
  clear Wy Wz. destruct Y as [->|[->|[->| ->]]]; cbn in G; injection G as <-; destruct I as [<-|[]]; try discriminate P.
  destruct Z as [->|[->|[->| ->]]]; try lia; cbn in G'; injection G' as <-; destruct I' as [<-|[]]; discriminate P'.
Qed.
Print Assumptions C145_stack_refuted.
(** The exact value; other instructions get none. *)
Theorem C145_stack_partial : forall m col fns p p', NoDup (dkeys p) -> recover m col fns p = Ok p' ->
  forall a cs, dget p a = Some cs -> exists cs' fn, dget p' a = Some cs' /\ current_function fns (dkeys p) a fn /\
    Forall2 (fun c c' =>
      (d_ignore (c_inst c) = false -> d_kind (c_inst c) <> KOther -> exists q, dget (c_scores c') Kpopu = Some q /\ stack_value m fns p fn a cs (c_inst c) q) /\
      (d_ignore (c_inst c) = true \/ d_kind (c_inst c) = KOther -> dget (c_scores c') Kpopu = dget (c_scores c) Kpopu)) cs cs'.
Proof.
  intros m col fns p p' N H a cs G. destruct (recover_spec m col fns p N) as [B _]. destruct (B p' H) as (lo & hi & _ & _ & _ & _ & _ & F). destruct (F a cs G) as (fn & first & cs' & Cf & _ & G' & F2). exists cs', fn. split; [exact G'|]. split; [exact Cf|].
  assert (F3 : Forall2 (fun c c' => In c cs /\ score_candidate m col (collect_program (mkWith [] [] []) (plain p)) fns (plain p) lo hi fn a first c = Ok c') cs cs').
  { clear - F2. assert (X : forall c, In c cs -> In c cs) by auto. revert X. generalize cs at 2 3 as all. intros all X. induction F2 as [|c c' l l' E F2 IH]; constructor; [split; [apply X; left; reflexivity|exact E]|]. apply IH. intros c0 I. apply X. right. exact I. }
  clear F2. rename F3 into F2. assert (Q : forall c c', In c cs /\ score_candidate m col (collect_program (mkWith [] [] []) (plain p)) fns (plain p) lo hi fn a first c = Ok c' ->
    (d_ignore (c_inst c) = false -> d_kind (c_inst c) <> KOther -> exists q, dget (c_scores c') Kpopu = Some q /\ stack_value m fns p fn a cs (c_inst c) q) /\
    (d_ignore (c_inst c) = true \/ d_kind (c_inst c) = KOther -> dget (c_scores c') Kpopu = dget (c_scores c) Kpopu)).
  2:{ exact (Forall2_weaken _ _ _ _ Q F2). }
  clear F2. intros c c' [Ic E]. assert (Nc : cs <> []) by (intros ->; destruct Ic). unfold score_candidate in E.
  destruct (d_ignore (c_inst c)) eqn:Ig; [assert (c' = c) as -> by congruence; split; [discriminate|reflexivity]|].
  assert (Other : forall s k q, k <> Kpopu -> dget (dset s k q : scores) Kpopu = dget s Kpopu) by (intros; apply dget_dset_other; auto).
  destruct (compute_conditional _ _ _ _) as [s1|] eqn:E1; cbn [bind] in E; [|discriminate].
  destruct (compute_opcode _ _ _ _) as [s2|] eqn:E2; cbn [bind] in E; [|discriminate].
  destruct (compute_registers _ _ _ _) as [s3|] eqn:E3; cbn [bind] in E; [|discriminate].
  destruct (compute_push_pop _ _ _ _ _ _ _) as [s4|] eqn:E4; cbn [bind] in E; [|discriminate].
  destruct (compute_branch_address _ _ _ _ _ _ _) as [s5|] eqn:E5; cbn [bind] in E; [|discriminate].
  assert (S3 : dget s3 Kpopu = dget (c_scores c) Kpopu).
  { assert (X1 : dget s1 Kpopu = dget (c_scores c) Kpopu) by (unfold compute_conditional in E1; destruct (or_zero _); cbn [bind] in E1; [|discriminate]; injection E1 as <-; apply Other; discriminate).
    assert (X2 : dget s2 Kpopu = dget s1 Kpopu) by (unfold compute_opcode in E2; destruct (or_zero _); cbn [bind] in E2; [|discriminate]; injection E2 as <-; apply Other; discriminate).
    assert (X3 : dget s3 Kpopu = dget s2 Kpopu). { unfold compute_registers in E3. destruct (_ || _); [congruence|]. destruct (or_zero _); cbn [bind] in E3; [|discriminate]. injection E3 as <-. apply Other. discriminate. }
    congruence. }
  assert (S5 : dget s5 Kpopu = dget s4 Kpopu).
  { unfold compute_branch_address in E5. destruct (d_ignore (c_inst c) || negb (d_branch (c_inst c))); [congruence|]. destruct (d_jump (c_inst c)) as [j|]; [|injection E5 as <-; apply Other; discriminate].
    destruct (if fn <=? j then _ else _) as [here|]; cbn [bind] in E5; [|discriminate]. destruct here; [|destruct (dmem fns j); [|destruct ((hi <? j) || (j <? lo))]]; injection E5 as <-; apply Other; discriminate. }
  assert (S6 : dget (c_scores c') Kpopu = dget s5 Kpopu).
  { destruct first; cbn [bind] in E; [injection E as <-; reflexivity|]. unfold compute_cfg in E.
    assert (X : forall prog b s, dget (compute_register_distance m col prog b (c_inst c) s) Kpopu = dget s Kpopu) by (intros; unfold compute_register_distance; destruct (_ || _); [reflexivity|apply Other; discriminate]).
    destruct (cfg_result _ _ _ _ _ _ _ _ _) as [r|]; cbn [bind] in E; [|discriminate].
    destruct (Qeq_bool r 0); cbn [bind] in E; [injection E as <-; cbn [c_scores]; rewrite Other by discriminate; apply X|].
    destruct (qlt 1 r); cbn [bind] in E; [discriminate|]. injection E as <-; cbn [c_scores]; rewrite Other by discriminate; apply X. }
  rewrite S6, S5. destruct (stack_spec _ _ _ _ _ _ _ _ _ G Nc E4) as [[K ->]|(K & q & -> & V)].
  - split; [intros _ X; contradiction|]. intros _. exact S3.
  - split; [|intros [X|X]; [discriminate|contradiction]]. intros _ _. exists q. split; [apply dget_dset_same|exact V].
Qed.
Print Assumptions C145_stack_partial.
(** A push of the registers popped at the end of the function. *)
Example C145_example : NoDup (dkeys ex_pair) /\ offers_at ex_pair 4 is_pop /\ alike (d_rwritten (c_inst (pop_of 4 4))) (d_rread (c_inst (push_of 0 4))) /\
  exists p', recover default_model new_collector [(0, (0, 4))] ex_pair = Ok p' /\
    option_map (fun cs => map (fun c => dget (c_scores c) Kpopu) cs) (dget p' 0) = Some [Some (pop_end_equal default_model)].
Proof.
  split; [repeat constructor; cbn; lia|]. split; [exists (pop_of 4 4); split; [eexists; split; [reflexivity|left; reflexivity]|split; reflexivity]|]. split; [split; intros r [<-|[<-|[]]]; cbn; auto|].
  eexists. split; [vm_compute; reflexivity|]. vm_compute. reflexivity.
Qed.
