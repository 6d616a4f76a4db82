(** The renaming gives every definition the next number of its variable and every read
    the number of the last definition made, whatever the order of the blocks. *)
From Verif Require Import ListLemmas.
From Verif Require Export SsaModel SsaSpec.
From Coq Require Import ZifyBool ZifyNat.

Lemma name_eqb_iff a b : name_eqb a b = true <-> a = b.
Proof. destruct a as [x y], b as [z t]. unfold name_eqb. cbn [fst snd]. split; [intros H; f_equal; lia|intros H; injection H; lia]. Qed.
Lemma nmember_in a l : nmember a l = true <-> In a l.
Proof. unfold nmember. rewrite existsb_exists. split; [intros (y & I & E); apply name_eqb_iff in E as ->; auto|intros I; exists a; split; [auto|now apply name_eqb_iff]]. Qed.

(** ** The machine without the stack *)
Definition strip (st : ssa) : ssa := Ssa (s_counter st) [] (s_phi st) (s_read st) (s_written st).
Definition cnt (st : ssa) (v : Z) : Z := match dget (s_counter st) v with Some k => k | None => 0 end.
Definition pnew (st : ssa) (v : Z) : ssa := Ssa (dset (s_counter st) v (cnt st v + 1)) [] (s_phi st) (s_read st) (s_written st).
Definition pphi1 (s : ssa * phis) (e : name * list name) : ssa * phis := let '(st, d) := s in (pnew st (fst (fst e)), pset d (fst (fst e), cnt st (fst (fst e)) + 1) (snd e)).
Definition pphis (st : ssa) (n : Z) : ssa := let '(st', d) := fold_left pphi1 (s_phi st n) (st, []) in with_phi st' n d.
Definition pread (i : nat) (st : ssa) (r : Z) : ssa :=
  if nmember (r, cnt st r) (s_read st i) then st else Ssa (s_counter st) [] (s_phi st) (nupd (s_read st) i (s_read st i ++ [(r, cnt st r)])) (s_written st).
Definition pwrite (i : nat) (st : ssa) (w : Z) : ssa := Ssa (dset (s_counter st) w (cnt st w + 1)) [] (s_phi st) (s_read st) (nupd (s_written st) i (s_written st i ++ [(w, cnt st w + 1)])).
Definition pinst (p : sprog) (st : ssa) (i : nat) : ssa := fold_left (pwrite i) (p_writes p i) (fold_left (pread i) (p_reads p i) st).
Definition pfill (st : ssa) (b : Z) : ssa := with_phi st b (map (fun e => (fst e, snd e ++ [(fst (fst e), cnt st (fst (fst e)))])) (s_phi st b)).
Definition pblock (p : sprog) (h : heap) (st : ssa) (n : Z) : ssa := fold_left pfill (h_succ h n) (fold_left (pinst p) (p_inst p n) (pphis st n)).

(** The top of a stack that is not empty is the counter. *)
Definition good (st : ssa) : Prop := forall v k l, dget (s_counter st) v = Some k -> dget (s_stack st) v = Some l -> match l with [] => True | t :: _ => t = k end.
(** [f] does what [f'] does, on states that are good. *)
Definition sim (f : ssa -> result ssa) (f' : ssa -> ssa) : Prop :=
  forall st st', good st -> dkeys (s_counter st) = dkeys (s_stack st) -> f st = Ok st' -> good st' /\ dkeys (s_counter st') = dkeys (s_stack st') /\ strip st' = f' (strip st).
Lemma sim_bind f f' k k' : sim f f' -> sim k k' -> sim (fun st => let* s := f st in k s) (fun st => k' (f' st)).
Proof.
  intros A B st st' G K E. destruct (f st) as [s|] eqn:Es; [|discriminate]. cbn [bind] in E. destruct (A st s G K Es) as (G1 & K1 & S1). destruct (B s st' G1 K1 E) as (G2 & K2 & S2).
  split; [auto|]. split; [auto|]. congruence.
Qed.
Lemma sim_fold {A} (f : ssa -> A -> result ssa) f' : (forall a, sim (fun st => f st a) (fun st => f' st a)) -> forall l, sim (foldM f l) (fold_left f' l).
Proof.
  intros H. induction l as [|a l IH]; [intros st st' G K E; injection E as <-; auto|].
  exact (sim_bind (fun st => f st a) (fun st => f' st a) (foldM f l) (fold_left f' l) (H a) IH).
Qed.
Lemma top_good st v t : good st -> dkeys (s_counter st) = dkeys (s_stack st) -> top st v = Ok t -> t = cnt st v.
Proof.
  intros G K E. unfold top, dget_r in E. destruct (dget (s_stack st) v) as [l|] eqn:El; [|discriminate]. cbn [bind] in E. destruct l as [|x l]; [discriminate|]. injection E as ->.
  unfold cnt. destruct (dget (s_counter st) v) as [k|] eqn:Ek; [exact (G v k _ Ek El)|]. exfalso. apply dget_none in Ek. apply Ek. rewrite K. apply dget_some_in. eauto.
Qed.
Lemma keys_set st v k l : dkeys (s_counter st) = dkeys (s_stack st) -> dkeys (dset (s_counter st) v k) = dkeys (dset (s_stack st) v l).
Proof.
  intros K. rewrite !dkeys_dset. unfold dmem. rewrite K.
  destruct (dget (s_counter st) v) as [a|] eqn:Ea, (dget (s_stack st) v) as [b|] eqn:Eb; auto; exfalso.
  - apply dget_none in Eb. apply Eb. rewrite <- K. apply dget_some_in. eauto.
  - apply dget_none in Ea. apply Ea. rewrite K. apply dget_some_in. eauto.
Qed.
Lemma new_name_good st v st' k : good st -> dkeys (s_counter st) = dkeys (s_stack st) -> new_name st v = Ok (st', k) ->
  good st' /\ dkeys (s_counter st') = dkeys (s_stack st') /\ strip st' = pnew (strip st) v /\ k = (v, cnt st v + 1).
Proof.
  intros G K E. unfold new_name, dget_r in E. destruct (dget (s_counter st) v) as [c|] eqn:Ec; [|discriminate]. cbn [bind] in E. destruct (dget (s_stack st) v) as [l|] eqn:El; [|discriminate]. cbn [bind] in E.
  injection E as <- <-. unfold strip, pnew, cnt. cbn [s_counter s_stack s_phi s_read s_written]. rewrite Ec. split; [|split; [now apply keys_set|auto]].
  intros x k' l' H1 H2. cbn [s_counter s_stack] in H1, H2. rewrite dget_dset in H1; rewrite dget_dset in H2. destruct (x =? v); [injection H1 as <-; injection H2 as <-; auto|exact (G x k' l' H1 H2)].
Qed.
Lemma pop_good st v st' : good st -> dkeys (s_counter st) = dkeys (s_stack st) -> pop st v = Ok st' -> good st' /\ dkeys (s_counter st') = dkeys (s_stack st') /\ strip st' = strip st.
Proof.
  intros G K E. unfold pop, dget_r in E. destruct (dget (s_stack st) v) as [l|] eqn:El; [|discriminate]. cbn [bind] in E. destruct l as [|t l]; [discriminate|]. injection E as <-.
  split; [|split; [|reflexivity]]; cbn [s_counter s_stack].
  - intros x k' l' H1 H2. cbn [s_counter s_stack] in H1, H2. rewrite dget_dset in H2. destruct (Z.eqb_spec x v) as [->|]; [|exact (G x k' l' H1 H2)].
    injection H2 as <-. pose proof (G v k' _ H1 El) as Q. cbn in Q. destruct l; cbn [removelast]; auto.
  - rewrite dkeys_dset. unfold dmem. now rewrite El.
Qed.
Lemma phis_sim n : sim (fun st => rename_phis st n) (fun st => pphis st n).
Proof.
  intros st st' G K E. unfold rename_phis, pphis in *. change (s_phi (strip st) n) with (s_phi st n).
  assert (L : forall l st d st' d', good st -> dkeys (s_counter st) = dkeys (s_stack st) ->
    foldM (fun (s : ssa * phis) e => let '(st, d) := s in let* (st, k) := new_name st (fst (fst e)) in Ok (st, pset d k (snd e))) l (st, d) = Ok (st', d') ->
    good st' /\ dkeys (s_counter st') = dkeys (s_stack st') /\ fold_left pphi1 l (strip st, d) = (strip st', d')).
  { clear. induction l as [|e l IH]; intros st d st' d' G K E; [cbn in E; injection E as <- <-; auto|]. cbn [foldM] in E. destruct (new_name st (fst (fst e))) as [[s1 k]|] eqn:En; [|discriminate]. cbn [bind] in E.
    destruct (new_name_good _ _ _ _ G K En) as (G1 & K1 & S1 & ->). destruct (IH s1 _ st' d' G1 K1 E) as (G2 & K2 & S2). split; [auto|]. split; [auto|]. cbn [fold_left].
    assert (Ep : pphi1 (strip st, d) e = (strip s1, pset d (fst (fst e), cnt st (fst (fst e)) + 1) (snd e))) by (unfold pphi1; rewrite S1; reflexivity). now rewrite Ep. }
  match type of E with bind ?x _ = _ => destruct x as [[s1 d]|] eqn:Ef end; [|discriminate]. cbn [bind] in E. injection E as <-. destruct (L _ _ _ _ _ G K Ef) as (G1 & K1 & S1). match goal with |- context [fold_left pphi1 ?l ?s] => replace (fold_left pphi1 l s) with (strip s1, d) by (symmetry; exact S1) end.
  split; [exact G1|]. split; [exact K1|reflexivity].
Qed.
Lemma read_sim i r : sim (fun st => rename_read i st r) (fun st => pread i st r).
Proof.
  intros st st' G K E. unfold rename_read in E. destruct (top st r) as [t|] eqn:Et; [|discriminate]. cbn [bind] in E. pose proof (top_good _ _ _ G K Et) as ->. injection E as <-. unfold pread.
  change (cnt (strip st)) with (cnt st). change (s_read (strip st)) with (s_read st). destruct (nmember _ _); [auto|]. split; [exact G|]. split; [exact K|reflexivity].
Qed.
Lemma write_sim i w : sim (fun st => rename_write i st w) (fun st => pwrite i st w).
Proof.
  intros st st' G K E. unfold rename_write in E. destruct (new_name st w) as [[s1 k]|] eqn:En; [|discriminate]. cbn [bind] in E. injection E as <-.
  destruct (new_name_good _ _ _ _ G K En) as (G1 & K1 & S1 & ->). split; [exact G1|]. split; [exact K1|]. unfold strip, pnew in S1. cbn [s_counter s_stack s_phi s_read s_written] in S1. injection S1 as S1 S2 S3 S4.
  unfold strip, pwrite. cbn [s_counter s_stack s_phi s_read s_written]. rewrite S1, S2, S3, S4. reflexivity.
Qed.
Lemma inst_sim p i : sim (fun st => rename_inst p st i) (fun st => pinst p st i).
Proof. unfold rename_inst, pinst. apply (sim_bind (foldM (rename_read i) (p_reads p i)) (fold_left (pread i) (p_reads p i)) (foldM (rename_write i) (p_writes p i)) (fold_left (pwrite i) (p_writes p i))); apply sim_fold; [apply read_sim|apply write_sim]. Qed.
Lemma fill_sim b : sim (fun st => fill_phis st b) (fun st => pfill st b).
Proof.
  intros st st' G K E. unfold fill_phis in E. match type of E with bind ?x _ = _ => destruct x as [d|] eqn:Em end; [|discriminate]. cbn [bind] in E. injection E as <-. split; [exact G|]. split; [exact K|].
  unfold pfill. change (cnt (strip st)) with (cnt st). change (s_phi (strip st) b) with (s_phi st b). assert (d = map (fun e => (fst e, snd e ++ [(fst (fst e), cnt st (fst (fst e)))])) (s_phi st b)) as ->; [|reflexivity].
  revert d Em. induction (s_phi st b) as [|e l IH]; intros d Em; cbn [mapM] in Em; [injection Em as <-; auto|]. cbv beta in Em. destruct (top st (fst (fst e))) as [t|] eqn:Et; [|cbn in Em; discriminate]. cbn [bind] in Em.
  pose proof (top_good _ _ _ G K Et) as ->. match type of Em with bind ?x _ = _ => destruct x as [d'|] eqn:Em' end; [|discriminate]. cbn [bind] in Em. injection Em as <-. cbn [map]. f_equal. now apply IH.
Qed.
Lemma roll_sim p n : sim (fun st => roll_back p st n) (fun st => st).
Proof.
  intros st st' G K E. unfold roll_back in E. revert E. generalize (s_phi st n) as l. intros l E.
  assert (Q : forall l, sim (foldM (fun st (e : name * list name) => let* s := foldM (fun st i => if zmem (fst (fst e)) (p_writes p i) then pop st (fst (fst e)) else Ok st) (p_inst p n) st in pop s (fst (fst e))) l) (fold_left (fun st _ => st) l)).
  { apply sim_fold. intros e. assert (Hp : forall v, sim (fun st => pop st v) (fun st => st)) by (intros v s s' A B C; apply (pop_good _ _ _ A B C)).
    assert (Hq : forall l, sim (foldM (fun st i => if zmem (fst (fst e)) (p_writes p i) then pop st (fst (fst e)) else Ok st) l) (fold_left (fun st (_ : nat) => st) l)).
    { apply sim_fold. intros i. destruct (zmem _ _); [apply Hp|]. intros s s' A B C. injection C as <-. auto. }
    intros s s' A B C. destruct (sim_bind _ _ _ _ (Hq (p_inst p n)) (Hp (fst (fst e))) s s' A B C) as (D1 & D2 & D3). split; [auto|]. split; [auto|]. rewrite D3. generalize (strip s). clear. induction (p_inst p n); cbn; auto. }
  destruct (Q l st st' G K E) as (D1 & D2 & D3). split; [auto|]. split; [auto|]. rewrite D3. generalize (strip st). clear. induction l; cbn; auto.
Qed.

(** ** The order of the blocks *)
Lemma node_sim p h : forall fuel n st st', good st -> dkeys (s_counter st) = dkeys (s_stack st) -> rename_node fuel p h st n = Ok st' ->
  good st' /\ dkeys (s_counter st') = dkeys (s_stack st') /\ exists order, preorder (h_children h) n order /\ strip st' = fold_left (pblock p h) order (strip st).
Proof.
  induction fuel as [|fuel IH]; intros n st st' G K E; [discriminate|].
  assert (Es : rename_node (S fuel) p h st n = let* st := rename_phis st n in let* st := foldM (rename_inst p) (p_inst p n) st in let* st := foldM fill_phis (h_succ h n) st in
    let* st := foldM (rename_node fuel p h) (h_children h n) st in roll_back p st (last (h_children h n) n)) by reflexivity.
  rewrite Es in E. clear Es. destruct (rename_phis st n) as [s1|] eqn:E1; [|discriminate]. cbn [bind] in E. destruct (phis_sim n st s1 G K E1) as (G1 & K1 & S1).
  destruct (foldM (rename_inst p) (p_inst p n) s1) as [s2|] eqn:E2; [|discriminate]. cbn [bind] in E. destruct (sim_fold _ _ (inst_sim p) (p_inst p n) s1 s2 G1 K1 E2) as (G2 & K2 & S2).
  destruct (foldM fill_phis (h_succ h n) s2) as [s3|] eqn:E3; [|discriminate]. cbn [bind] in E. destruct (sim_fold _ _ fill_sim (h_succ h n) s2 s3 G2 K2 E3) as (G3 & K3 & S3).
  destruct (foldM (rename_node fuel p h) (h_children h n) s3) as [s4|] eqn:E4; [|discriminate]. cbn [bind] in E.
  assert (L : forall l s s', good s -> dkeys (s_counter s) = dkeys (s_stack s) -> foldM (rename_node fuel p h) l s = Ok s' ->
    good s' /\ dkeys (s_counter s') = dkeys (s_stack s') /\ exists order, preorders (h_children h) l order /\ strip s' = fold_left (pblock p h) order (strip s)).
  { clear - IH. induction l as [|c l IHl]; intros s s' G K E; [injection E as <-; split; [auto|]; split; [auto|]; exists []; split; [constructor|auto]|].
    cbn [foldM] in E. destruct (rename_node fuel p h s c) as [s1|] eqn:E1; [|discriminate]. cbn [bind] in E. destruct (IH c s s1 G K E1) as (G1 & K1 & o1 & P1 & S1). destruct (IHl s1 s' G1 K1 E) as (G2 & K2 & o2 & P2 & S2).
    split; [auto|]. split; [auto|]. exists (o1 ++ o2). split; [now constructor|]. rewrite fold_left_app. congruence. }
  destruct (L _ _ _ G3 K3 E4) as (G4 & K4 & o & Po & So). destruct (roll_sim p _ s4 st' G4 K4 E) as (G5 & K5 & S5). split; [auto|]. split; [auto|]. exists (n :: o). split; [now constructor|].
  cbn [fold_left]. rewrite S5, So, S3, S2, S1. reflexivity.
Qed.
