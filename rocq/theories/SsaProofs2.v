(** What the machine without the stack computes. *)
From Verif Require Import ListLemmas.
From Verif Require Export GraphProofs SsaProofs.
From Coq Require Import ZifyBool ZifyNat.

(** ** Numbering *)
Lemma occ_nil v : occ v [] = 0.
Proof. reflexivity. Qed.
Lemma occ_cons v x l : occ v (x :: l) = (if v =? x then 1 else 0) + occ v l.
Proof. unfold occ. cbn [count_occ]. destruct (Z.eq_dec x v), (Z.eqb_spec v x); try congruence; lia. Qed.
Lemma occ_app v l m : occ v (l ++ m) = occ v l + occ v m.
Proof. unfold occ. rewrite count_occ_app. lia. Qed.
Lemma occ_pos v l : 0 <= occ v l.
Proof. unfold occ. lia. Qed.
Lemma occ_in v l : In v l <-> 1 <= occ v l.
Proof. unfold occ. rewrite (count_occ_In Z.eq_dec). lia. Qed.
Lemma numbered_ext c c' l : (forall x, c x = c' x) -> numbered c l = numbered c' l.
Proof. revert c c'. induction l as [|v l IH]; intros c c' H; [auto|]. cbn [numbered]. rewrite H. f_equal. apply IH. intros x. now rewrite H. Qed.
Lemma numbered_app c l m : numbered c (l ++ m) = numbered c l ++ numbered (fun x => c x + occ x l) m.
Proof.
  revert c. induction l as [|v l IH]; intros c; cbn [app numbered]; [apply numbered_ext; intros x; rewrite occ_nil; lia|]. f_equal. rewrite IH. f_equal. apply numbered_ext. intros x. rewrite occ_cons. destruct (x =? v); lia.
Qed.
Lemma numbered_fst c l : map fst (numbered c l) = l.
Proof. revert c. induction l as [|v l IH]; intros c; cbn; [auto|now rewrite IH]. Qed.
Lemma numbered_in c l v k : In (v, k) (numbered c l) <-> c v < k <= c v + occ v l.
Proof.
  revert c. induction l as [|x l IH]; intros c; cbn [numbered In]; [rewrite occ_nil; lia|]. rewrite IH, occ_cons. destruct (Z.eqb_spec v x) as [->|n].
  - pose proof (occ_pos x l). split; [intros [E|E]; [injection E as <-; lia|lia]|]. intros E. destruct (Z.eq_dec k (c x + 1)) as [->|]; [auto|right; lia].
  - split; [intros [E|E]; [congruence|lia]|]. intros E. right. lia.
Qed.
Lemma numbered_nodup c l : NoDup (numbered c l).
Proof. revert c. induction l as [|x l IH]; intros c; cbn [numbered]; constructor; [|auto]. rewrite numbered_in, Z.eqb_refl. lia. Qed.
Lemma pset_fresh d k v : ~ In k (map fst d) -> pset d k v = d ++ [(k, v)].
Proof. induction d as [|[k' v'] d IH]; intros N; cbn [pset app]; [auto|]. cbn [map fst In] in N. destruct (name_eqb k k') eqn:E; [apply name_eqb_iff in E; subst; exfalso; auto|]. f_equal. apply IH. auto. Qed.

(** ** Single steps *)
Lemma cnt_dset st v c ph rd wr x : cnt (Ssa (dset (s_counter st) v c) [] ph rd wr) x = if x =? v then c else cnt st x.
Proof. unfold cnt. cbn [s_counter]. rewrite dget_dset. now destruct (x =? v). Qed.
Definition pv (st : ssa) (n : Z) : list Z := map (fun e => fst (fst e)) (s_phi st n).
Lemma pv_fst st n : pv st n = map fst (map fst (s_phi st n)).
Proof. unfold pv. now rewrite map_map. Qed.

Lemma phis_step st n : let st' := pphis st n in
  (forall x, cnt st' x = cnt st x + occ x (pv st n)) /\ s_read st' = s_read st /\ s_written st' = s_written st /\ (forall m, m <> n -> s_phi st' m = s_phi st m) /\
  map fst (s_phi st' n) = numbered (cnt st) (pv st n) /\ map snd (s_phi st' n) = map snd (s_phi st n).
Proof.
  cbv zeta. unfold pphis.
  assert (L : forall l s d s' d', (forall v k, In (v, k) (map fst d) -> k <= cnt s v) -> fold_left pphi1 l (s, d) = (s', d') ->
    (forall x, cnt s' x = cnt s x + occ x (map (fun e => fst (fst e)) l)) /\ s_read s' = s_read s /\ s_written s' = s_written s /\ s_phi s' = s_phi s /\
    map fst d' = map fst d ++ numbered (cnt s) (map (fun e => fst (fst e)) l) /\ map snd d' = map snd d ++ map snd l).
  { clear. induction l as [|e l IH]; intros s d s' d' B E; cbn [fold_left] in E; [injection E as <- <-; cbn [map numbered]; rewrite !app_nil_r; split; [intros x; rewrite occ_nil; lia|auto]|].
    unfold pphi1 at 2 in E. set (v := fst (fst e)) in *. rewrite pset_fresh in E by (intros I; apply B in I; lia).
    apply IH in E as (A1 & A2 & A3 & A4 & A5 & A6).
    - cbn [map numbered]. fold v. split; [|split; [exact A2|split; [exact A3|split; [exact A4|]]]].
      + intros x. rewrite A1, occ_cons. unfold pnew. rewrite cnt_dset. destruct (Z.eqb_spec x v) as [->|]; lia.
      + rewrite A5, A6, !map_app. cbn [map fst snd]. rewrite <- !app_assoc. cbn [app]. split; [|reflexivity]. do 2 f_equal. apply numbered_ext. intros x. unfold pnew. rewrite cnt_dset. destruct (Z.eqb_spec x v) as [->|]; lia.
    - intros x k I. rewrite map_app in I. apply in_app_iff in I. unfold pnew. rewrite cnt_dset. cbn [map fst In] in I. destruct I as [I|[I|[]]].
      + apply B in I. destruct (Z.eqb_spec x v) as [->|]; lia.
      + injection I as <- <-. rewrite Z.eqb_refl. lia. }
  destruct (fold_left pphi1 (s_phi st n) (st, [])) as [s' d'] eqn:E. apply L in E as (A1 & A2 & A3 & A4 & A5 & A6); [|intros v k []].
  split; [exact A1|]. split; [exact A2|]. split; [exact A3|]. cbn [with_phi s_phi]. unfold upd. split; [intros m N; destruct (Z.eqb_spec m n); [contradiction|now rewrite A4]|]. rewrite Z.eqb_refl. auto.
Qed.
Lemma inst_step p st i : let st' := pinst p st i in
  (forall x, cnt st' x = cnt st x + occ x (p_writes p i)) /\ s_phi st' = s_phi st /\ (forall j, j <> i -> s_read st' j = s_read st j /\ s_written st' j = s_written st j) /\
  (forall k, In k (s_read st' i) <-> In k (s_read st i) \/ exists r, In r (p_reads p i) /\ k = (r, cnt st r)) /\ (NoDup (s_read st i) -> NoDup (s_read st' i)) /\
  s_written st' i = s_written st i ++ numbered (cnt st) (p_writes p i).
Proof.
  cbv zeta. unfold pinst.
  assert (Lr : forall l s, let s' := fold_left (pread i) l s in (forall x, cnt s' x = cnt s x) /\ s_phi s' = s_phi s /\ s_written s' = s_written s /\ (forall j, j <> i -> s_read s' j = s_read s j) /\
    (forall k, In k (s_read s' i) <-> In k (s_read s i) \/ exists r, In r l /\ k = (r, cnt s r)) /\ (NoDup (s_read s i) -> NoDup (s_read s' i))).
  { clear. induction l as [|r l IH]; intros s; cbn [fold_left].
    { repeat (split; [now auto|]). split; [intros k; split; [auto|]; intros [|(r & [] & _)]; auto|auto]. }
    cbv zeta in *. destruct (IH (pread i s r)) as (A1 & A2 & A3 & A4 & A5 & A6).
    assert (B : (forall x, cnt (pread i s r) x = cnt s x) /\ s_phi (pread i s r) = s_phi s /\ s_written (pread i s r) = s_written s /\ (forall j, j <> i -> s_read (pread i s r) j = s_read s j) /\
      (forall k, In k (s_read (pread i s r) i) <-> In k (s_read s i) \/ k = (r, cnt s r)) /\ (NoDup (s_read s i) -> NoDup (s_read (pread i s r) i))).
    { unfold pread. destruct (nmember (r, cnt s r) (s_read s i)) eqn:M.
      - apply nmember_in in M. repeat (split; [now auto|]). split; [|auto]. intros k. split; [auto|]. intros [|E]; [auto|now rewrite E].
      - split; [auto|]. split; [auto|]. split; [auto|]. cbn [s_read]. unfold nupd. split; [intros j N; destruct (Nat.eqb_spec j i); [contradiction|auto]|]. rewrite Nat.eqb_refl. split.
        + intros k. rewrite in_app_iff. cbn [In]. split; [intros [|[<-|[]]]; auto|]. intros [|E]; [auto|rewrite E; auto].
        + intros N. apply nodup_snoc; [auto|]. intros I. apply nmember_in in I. congruence. }
    destruct B as (B1 & B2 & B3 & B4 & B5 & B6). split; [intros x; now rewrite A1, B1|]. split; [congruence|]. split; [congruence|]. split; [intros j N; rewrite A4, B4; auto|]. split; [|auto].
    intros k. rewrite A5, B5. split.
    - intros [[|E]|(r' & I & E)]; [auto|right; exists r; split; [left; auto|auto]|]. right. exists r'. split; [right; auto|]. now rewrite <- B1.
    - intros [|(r' & [<-|I] & E)]; [auto|auto|]. right. exists r'. split; [auto|]. now rewrite B1. }
  assert (Lw : forall l s, let s' := fold_left (pwrite i) l s in (forall x, cnt s' x = cnt s x + occ x l) /\ s_phi s' = s_phi s /\ s_read s' = s_read s /\ (forall j, j <> i -> s_written s' j = s_written s j) /\
    s_written s' i = s_written s i ++ numbered (cnt s) l).
  { clear. induction l as [|w l IH]; intros s; cbn [fold_left].
    { split; [intros x; rewrite occ_nil; lia|]. repeat (split; [now auto|]). cbn [numbered]. now rewrite app_nil_r. }
    cbv zeta in *. destruct (IH (pwrite i s w)) as (A1 & A2 & A3 & A4 & A5).
    assert (B1 : forall x, cnt (pwrite i s w) x = if x =? w then cnt s x + 1 else cnt s x) by (intros x; unfold pwrite; rewrite cnt_dset; destruct (Z.eqb_spec x w) as [->|]; auto).
    split; [intros x; rewrite A1, B1, occ_cons; destruct (x =? w); lia|]. split; [exact A2|]. split; [exact A3|]. split.
    - intros j N. rewrite A4 by auto. unfold pwrite. cbn [s_written]. unfold nupd. destruct (Nat.eqb_spec j i); [contradiction|auto].
    - rewrite A5. unfold pwrite at 1. cbn [s_written]. unfold nupd. rewrite Nat.eqb_refl, <- app_assoc. cbn [app numbered]. do 2 f_equal. apply numbered_ext. auto. }
  destruct (Lr (p_reads p i) st) as (A1 & A2 & A3 & A4 & A5 & A6). destruct (Lw (p_writes p i) (fold_left (pread i) (p_reads p i) st)) as (B1 & B2 & B3 & B4 & B5).
  split; [intros x; now rewrite B1, A1|]. split; [congruence|]. split; [intros j N; rewrite B3, B4 by auto; rewrite A3; auto|]. rewrite B3. split; [auto|]. split; [auto|]. rewrite B5, A3. f_equal. apply numbered_ext. auto.
Qed.
Lemma fill_step st b : let st' := pfill st b in
  (forall x, cnt st' x = cnt st x) /\ s_read st' = s_read st /\ s_written st' = s_written st /\ (forall m, m <> b -> s_phi st' m = s_phi st m) /\
  s_phi st' b = map (fun e => (fst e, snd e ++ [(fst (fst e), cnt st (fst (fst e)))])) (s_phi st b) /\ (forall m, map fst (s_phi st' m) = map fst (s_phi st m)).
Proof.
  cbv zeta. unfold pfill. cbn [with_phi s_phi s_read s_written]. unfold upd. split; [auto|]. split; [auto|]. split; [auto|]. split; [intros m N; destruct (Z.eqb_spec m b); [contradiction|auto]|]. rewrite Z.eqb_refl. split; [auto|].
  intros m. destruct (Z.eqb_spec m b) as [->|]; [now rewrite map_map|auto].
Qed.

(** ** Names are defined once *)
Definition names (st : ssa) (s : Z + nat) : list name := match s with inl b => map fst (s_phi st b) | inr i => s_written st i end.
Definition uniq (st : ssa) : Prop :=
  (forall s, NoDup (names st s)) /\ (forall s v k, In (v, k) (names st s) -> 0 <= k <= cnt st v) /\ (forall v, 0 <= cnt st v) /\
  (forall s1 s2 v k, In (v, k) (names st s1) -> In (v, k) (names st s2) -> 1 <= k -> s1 = s2).
Lemma site_dec (a b : Z + nat) : a = b \/ a <> b.
Proof. destruct a as [a|a], b as [b|b]; try (right; congruence); [destruct (Z.eq_dec a b)|destruct (Nat.eq_dec a b)]; [left|right|left|right]; congruence. Qed.
Lemma uniq_step st st' s0 old l : uniq st -> (old = [] \/ old = names st s0) -> (forall s, s <> s0 -> names st' s = names st s) -> names st' s0 = old ++ numbered (cnt st) l -> (forall x, cnt st' x = cnt st x + occ x l) -> uniq st'.
Proof.
  intros (U1 & U2 & U3 & U4) Ho Hs H0 Hc.
  assert (Hold : incl old (names st s0) /\ NoDup old) by (destruct Ho as [->| ->]; [split; [intros x []|constructor]|split; [apply incl_refl|auto]]). destruct Hold as [Io No].
  assert (Old : forall s v k, In (v, k) (names st' s) -> (In (v, k) (names st s)) \/ (s = s0 /\ cnt st v < k <= cnt st v + occ v l)).
  { intros s v k I. destruct (site_dec s s0) as [->|n]; [|rewrite Hs in I; auto]. rewrite H0 in I. apply in_app_iff in I as [I|I]; [left; auto|]. apply numbered_in in I. auto. }
  split; [|split; [|split]].
  - intros s. destruct (site_dec s s0) as [->|n]; [|rewrite Hs; auto]. rewrite H0.
    assert (G : forall m, (forall v k, In (v, k) m -> k <= cnt st v) -> NoDup m -> NoDup (m ++ numbered (cnt st) l)).
    { clear. induction m as [|[v k] m IH]; intros B N; cbn [app]; [apply numbered_nodup|]. inversion N; subst. constructor; [|apply IH; [intros; apply B; right; auto|auto]].
      rewrite in_app_iff, numbered_in. intros [|]; [contradiction|]. specialize (B v k (or_introl eq_refl)). lia. }
    apply G; [|auto]. intros v k I. apply Io in I. apply U2 in I. lia.
  - intros s v k I. rewrite Hc. pose proof (occ_pos v l). destruct (Old s v k I) as [Q|[_ Q]]; [apply U2 in Q; lia|]. specialize (U3 v). lia.
  - intros v. rewrite Hc. pose proof (occ_pos v l). specialize (U3 v). lia.
  - intros s1 s2 v k I1 I2 L. destruct (Old s1 v k I1) as [Q1|[-> Q1]], (Old s2 v k I2) as [Q2|[-> Q2]]; auto; [eauto|apply U2 in Q1; lia|apply U2 in Q2; lia].
Qed.
Lemma uniq_same st st' : uniq st -> (forall s, names st' s = names st s) -> (forall x, cnt st' x = cnt st x) -> uniq st'.
Proof.
  intros (U1 & U2 & U3 & U4) Hs Hc. split; [intros s; rewrite Hs; auto|]. split; [intros s v k; rewrite Hs, Hc; apply U2|]. split; [intros v; rewrite Hc; auto|]. intros s1 s2 v k. rewrite !Hs. apply U4.
Qed.
Lemma fold_inv {S A} (P : S -> Prop) (f : S -> A -> S) l s : (forall s a, P s -> P (f s a)) -> P s -> P (fold_left f l s).
Proof. intros H. revert s. induction l as [|a l IH]; intros s Q; cbn [fold_left]; auto. Qed.
Lemma uniq_block p h st n : uniq st -> uniq (pblock p h st n).
Proof.
  intros U. unfold pblock. apply fold_inv.
  - intros s b Us. destruct (fill_step s b) as (A1 & A2 & A3 & _ & _ & A6). eapply uniq_same; [exact Us| |exact A1]. intros [m|i]; cbn [names]; [apply A6|now rewrite A3].
  - apply fold_inv.
    + intros s i Us. destruct (inst_step p s i) as (A1 & A2 & A3 & _ & _ & A6). eapply (uniq_step s _ (inr i) _ _ Us); [right; reflexivity| |exact A6|exact A1].
      intros [m|j] N; cbn [names]; [now rewrite A2|]. apply A3. congruence.
    + destruct (phis_step st n) as (A1 & A2 & A3 & A4 & A5 & _). eapply (uniq_step st _ (inl n) [] _ U); [left; reflexivity| |exact A5|exact A1].
      intros [m|j] N; cbn [names]; [rewrite A4 by congruence; auto|now rewrite A3].
Qed.

(** ** The numbers *)
(** The variables that a block defines, in order. *)
Definition definitions (p : sprog) (vars : Z -> list Z) (b : Z) : list Z := vars b ++ flat_map (p_writes p) (p_inst p b).
Lemma insts_step p : forall l st, let st' := fold_left (pinst p) l st in (forall x, cnt st' x = cnt st x + occ x (flat_map (p_writes p) l)) /\ s_phi st' = s_phi st /\
  (forall j, ~ In j l -> s_read st' j = s_read st j /\ s_written st' j = s_written st j).
Proof.
  induction l as [|i l IH]; intros st; cbn [fold_left flat_map].
  { split; [intros x; rewrite occ_nil; lia|auto]. }
  cbv zeta in *. destruct (inst_step p st i) as (A1 & A2 & A3 & _). destruct (IH (pinst p st i)) as (B1 & B2 & B3). split; [intros x; rewrite B1, A1, occ_app; lia|]. split; [congruence|].
  intros j N. cbn [In] in N. destruct (B3 j) as [-> ->]; [auto|]. apply A3. auto.
Qed.
Lemma fills_step : forall l st, let st' := fold_left pfill l st in (forall x, cnt st' x = cnt st x) /\ s_read st' = s_read st /\ s_written st' = s_written st /\ (forall m, map fst (s_phi st' m) = map fst (s_phi st m)) /\ (forall m, ~ In m l -> s_phi st' m = s_phi st m).
Proof.
  induction l as [|b l IH]; intros st; cbn [fold_left]; [auto 10|]. cbv zeta in *. destruct (fill_step st b) as (A1 & A2 & A3 & A4 & _ & A6). destruct (IH (pfill st b)) as (B1 & B2 & B3 & B4 & B5).
  split; [intros x; now rewrite B1|]. split; [congruence|]. split; [congruence|]. split; [intros m; now rewrite B4|]. intros m N. cbn [In] in N. rewrite B5 by auto. apply A4. auto.
Qed.
Lemma block_step p h st n : let st' := pblock p h st n in
  (forall x, cnt st' x = cnt st x + occ x (definitions p (pv st) n)) /\ (forall m, pv st' m = pv st m) /\ (forall m, m <> n -> map fst (s_phi st' m) = map fst (s_phi st m)) /\
  map fst (s_phi st' n) = numbered (cnt st) (pv st n) /\ (forall j, ~ In j (p_inst p n) -> s_read st' j = s_read st j /\ s_written st' j = s_written st j).
Proof.
  cbv zeta. unfold pblock. destruct (phis_step st n) as (A1 & A2 & A3 & A4 & A5 & A6). set (s1 := pphis st n) in *. destruct (insts_step p (p_inst p n) s1) as (B1 & B2 & B3). set (s2 := fold_left (pinst p) (p_inst p n) s1) in *.
  destruct (fills_step (h_succ h n) s2) as (C1 & C2 & C3 & C4 & C5). set (s3 := fold_left pfill (h_succ h n) s2) in *.
  assert (P : forall m, map fst (s_phi s3 m) = if m =? n then numbered (cnt st) (pv st n) else map fst (s_phi st m)).
  { intros m. rewrite C4, B2. destruct (Z.eqb_spec m n) as [->|N]; [auto|]. now rewrite A4. }
  split; [intros x; rewrite C1, B1, A1; unfold definitions; rewrite occ_app; lia|]. split.
  - intros m. rewrite !pv_fst, P. destruct (Z.eqb_spec m n) as [->|]; [|auto]. now rewrite numbered_fst, pv_fst.
  - split; [intros m N; rewrite P; destruct (Z.eqb_spec m n); [contradiction|auto]|]. split; [now rewrite P, Z.eqb_refl|]. intros j N. rewrite C2, C3. destruct (B3 j N) as [-> ->]. now rewrite A2, A3.
Qed.
Lemma blocks_step p h : forall l st, let st' := fold_left (pblock p h) l st in
  (forall x, cnt st' x = cnt st x + occ x (flat_map (definitions p (pv st)) l)) /\ (forall m, pv st' m = pv st m) /\ (forall m, ~ In m l -> map fst (s_phi st' m) = map fst (s_phi st m)) /\
  (forall j, ~ In j (flat_map (p_inst p) l) -> s_read st' j = s_read st j /\ s_written st' j = s_written st j).
Proof.
  induction l as [|n l IH]; intros st; cbn [fold_left flat_map].
  { split; [intros x; rewrite occ_nil; lia|auto]. }
  cbv zeta in *. destruct (block_step p h st n) as (A1 & A2 & A3 & _ & A5). destruct (IH (pblock p h st n)) as (B1 & B2 & B3 & B4).
  assert (Ed : forall b, definitions p (pv (pblock p h st n)) b = definitions p (pv st) b) by (intros b; unfold definitions; now rewrite A2).
  split; [intros x; rewrite B1, A1, occ_app; rewrite (flat_map_ext _ _ Ed); lia|]. split; [intros m; now rewrite B2|]. split; [intros m N; cbn [In] in N; rewrite B3, A3; auto|].
  intros j N. rewrite in_app_iff in N. destruct (B4 j) as [-> ->]; [auto|]. apply A5. auto.
Qed.
Lemma numbers p h st l1 b l2 : NoDup (l1 ++ b :: l2) -> NoDup (flat_map (p_inst p) (l1 ++ b :: l2)) ->
  let st' := fold_left (pblock p h) (l1 ++ b :: l2) st in let before := flat_map (definitions p (pv st)) l1 in
  map fst (s_phi st' b) = numbered (fun x => cnt st x + occ x before) (pv st b) /\
  forall i1 i i2, p_inst p b = i1 ++ i :: i2 -> s_read st i = [] -> s_written st i = [] -> let before := before ++ pv st b ++ flat_map (p_writes p) i1 in
    (forall r k, In (r, k) (s_read st' i) <-> In r (p_reads p i) /\ k = cnt st r + occ r before) /\ NoDup (s_read st' i) /\
    s_written st' i = numbered (fun x => cnt st x + occ x before) (p_writes p i).
Proof.
  intros N1 N2. cbv zeta. rewrite fold_left_app. cbn [fold_left]. destruct (blocks_step p h l1 st) as (A1 & A2 & A3 & A4). set (s1 := fold_left (pblock p h) l1 st) in *.
  destruct (block_step p h s1 b) as (B1 & B2 & B3 & B4 & B5). destruct (blocks_step p h l2 (pblock p h s1 b)) as (C1 & C2 & C3 & C4).
  assert (Nb : ~ In b l1 /\ ~ In b l2) by (apply NoDup_remove_2 in N1; rewrite in_app_iff in N1; auto). split.
  - rewrite C3, B4, A2 by apply Nb. apply numbered_ext. auto.
  - intros i1 i i2 Ei R0 W0. rewrite flat_map_app in N2. cbn [flat_map] in N2. rewrite Ei in N2.
    assert (Ni : ~ In i (flat_map (p_inst p) l1) /\ ~ In i i1 /\ ~ In i i2 /\ ~ In i (flat_map (p_inst p) l2)).
    { rewrite <- app_assoc in N2. cbn [app] in N2. rewrite app_assoc in N2. apply NoDup_remove_2 in N2. rewrite !in_app_iff in N2. tauto. }
    destruct Ni as (M1 & M2 & M3 & M4). destruct (C4 i M4) as [-> ->]. unfold pblock. rewrite Ei. rewrite fold_left_app. cbn [fold_left].
    destruct (fills_step (h_succ h b) (fold_left (pinst p) i2 (pinst p (fold_left (pinst p) i1 (pphis s1 b)) i))) as (_ & -> & -> & _).
    destruct (insts_step p i2 (pinst p (fold_left (pinst p) i1 (pphis s1 b)) i)) as (_ & _ & D3). destruct (D3 i M3) as [-> ->].
    destruct (phis_step s1 b) as (E1 & E2 & E3 & _). destruct (insts_step p i1 (pphis s1 b)) as (F1 & _ & F3). destruct (F3 i M2) as [Fr Fw].
    destruct (inst_step p (fold_left (pinst p) i1 (pphis s1 b)) i) as (_ & _ & _ & G4 & G5 & G6). destruct (A4 i M1) as [Ar Aw].
    assert (Ec : forall x, cnt (fold_left (pinst p) i1 (pphis s1 b)) x = cnt st x + occ x (flat_map (definitions p (pv st)) l1 ++ pv st b ++ flat_map (p_writes p) i1)).
    { intros x. rewrite F1, E1, A1, A2, !occ_app. lia. }
    rewrite Fr, E2, Ar, R0 in G4, G5. rewrite Fw, E3, Aw, W0 in G6. split; [|split; [apply G5; constructor|]].
    + intros r k. rewrite G4. cbn [In]. split.
      * intros [[]|(r' & I & Q)]. injection Q as <- ->. rewrite Ec. auto.
      * intros [I ->]. right. exists r. rewrite Ec. auto.
    + rewrite G6. cbn [app]. apply numbered_ext. auto.
Qed.
