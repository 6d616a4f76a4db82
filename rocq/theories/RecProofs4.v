(** One whole pass: what it leaves, and that nothing in it is cut short. *)
From Verif Require Import ListLemmas FlipModel FlipProofs InstModel MetaModel MetaSpec MetaProofs RecModel RecSpec RecProofs RecProofs2 RecProofs3 RemoveProofs.
From Coq Require Import ZifyBool ZifyNat Permutation Sorted Lqa.

Lemma checked_ok q x : checked q = Ok x -> x = q /\ prob q.
Proof. unfold checked. destruct (qlt_spec 1 q); [discriminate|]. destruct (qlt_spec q 0); [discriminate|]. cbn [orb]. intros H. injection H as <-. split; [reflexivity|split; lra]. Qed.

Section WholePass.
Context (m : pmodel) (M : valid_model m) (orig : list dinst) (fns : functions) (p : cprogram)
  (HO : has_original orig p) (HS : all_scored p).

Definition judged (c c' : cand) : Prop :=
  c_inst c' = c_inst c /\ well_scored c' /\ (d_ignore (c_inst c) = true -> c' = c) /\
  exists q, score c' = Ok q /\ prob q /\
    (d_ignore (c_inst c) = true -> q = 0%Q) /\
    (d_ignore (c_inst c) = false -> c_fn c' = RemoveStep /\
       ((q == 1)%Q <-> settled orig p (c_inst c) /\ all_seen orig (c_inst c)) /\
       ((q == 0)%Q <-> ~ all_seen orig (c_inst c) \/ (stack_only (c_inst c) /\ ~ settled orig p (c_inst c)))).

Lemma pass_errors e : recover m (collect new_collector orig) fns p = Err e -> p = [] \/ e = KeyError \/ e = ZeroDivisionError.
Proof. intros H. destruct HO as (_ & N & _). destruct (recover_spec m (collect new_collector orig) fns p N) as [_ B].
  destruct (B e H) as [X|[X|[X|(a & cs & c & lo & hi & fn & f & G & I & K)]]]; auto. exfalso. apply K.
  assert (Hc : candidate p a c) by (exists cs; auto). apply (score_candidate_spec m M orig p HO fns lo hi fn a f c Hc). apply (HS a c Hc). Qed.

Lemma pass_spec p' : recover m (collect new_collector orig) fns p = Ok p' ->
  dkeys p' = dkeys p /\ forall a cs, dget p a = Some cs -> exists cs', dget p' a = Some cs' /\ Forall2 judged cs cs'.
Proof. intros H. pose proof HO as (_ & N & _). destruct (recover_spec m (collect new_collector orig) fns p N) as [B _].
  destruct (B p' H) as (lo & hi & _ & _ & _ & _ & K & F). split; [exact K|]. intros a cs G. destruct (F a cs G) as (fn & first & cs' & _ & _ & G' & F2).
  exists cs'. split; [exact G'|]. assert (I : forall c, In c cs -> candidate p a c) by (intros c Hc; exists cs; auto). clear - I F2 M HO HS.
  revert I. induction F2 as [|c c' cs cs' E F2 IH]; intros I; constructor; [|apply IH; intros; apply I; right; assumption].
  assert (Hc : candidate p a c) by (apply I; left; reflexivity). destruct (score_candidate_spec m M orig p HO fns lo hi fn a first c Hc (HS a c Hc)) as [_ S].
  destruct (S c' E) as (S1 & S2 & S3 & S4). split; [exact S1|]. split; [exact S2|]. split; [exact S3|].
  destruct (d_ignore (c_inst c)) eqn:Ig.
  - specialize (S3 eq_refl). subst c'. destruct (HS a c Hc) as [W _]. destruct (W Ig) as [W1 W2]. exists 0%Q. unfold score. rewrite W2, W1. split; [reflexivity|]. split; [apply prob0|]. split; [reflexivity|discriminate].
  - destruct (S4 eq_refl) as [Sf Sp]. destruct (remove_step_value orig p HO a c (c_scores c') Hc Ig Sp) as (q & Q1 & Q2 & Q3 & Q4).
    exists q. unfold score. rewrite Sf, S1. split; [exact Q1|]. split; [exact Q2|]. split; [discriminate|]. auto. Qed.

(** The next pass can start from the result. *)
Lemma pass_keeps p' : recover m (collect new_collector orig) fns p = Ok p' -> has_original orig p' /\ all_scored p' /\ plain p' = plain p.
Proof. intros H. destruct (pass_spec p' H) as [K F]. destruct HO as (N1 & N2 & H1 & H2). split; [|split].
  - split; [exact N1|]. split; [rewrite K; exact N2|]. split; [|rewrite K; exact H2]. intros o Ho. destruct (H1 o Ho) as (A & B & c & (cs & G & I) & E). split; [exact A|]. split; [exact B|].
    destruct (F _ _ G) as (cs' & G' & J). clear - G' J I E. assert (exists c', In c' cs' /\ judged c c') as (c' & I' & J').
    { clear - J I. induction J as [|x y l l' J F IH]; [destruct I|]. destruct I as [->|I]; [exists y; cbn; auto|destruct (IH I) as (c' & ? & ?); exists c'; cbn; auto]. }
    exists c'. split; [exists cs'; auto|]. destruct J' as [-> _]. exact E.
  - intros a c' (cs' & G' & I'). assert (Ha : In a (dkeys p)) by (rewrite <- K; apply dget_some_in; eauto). apply dget_some_in in Ha. destruct Ha as (cs & G). destruct (F _ _ G) as (cs'' & G'' & J).
    assert (cs'' = cs') as -> by congruence. clear - J I'. induction J as [|x y l l' J F IH]; [destruct I'|]. destruct I' as [<-|I']; [apply J|apply IH, I'].
  - clear - F K N2. assert (G : forall q q' : cprogram, dkeys q' = dkeys q -> NoDup (dkeys q) -> (forall a cs, dget q a = Some cs -> exists cs', dget q' a = Some cs' /\ Forall2 judged cs cs') -> plain q' = plain q).
    { clear. induction q as [|[k v] q IH]; intros q' K N F; destruct q' as [|[k' v'] q']; cbn in K; try discriminate; [reflexivity|]. injection K as -> K. cbn in N. inversion N as [|? ? Nk N']; subst.
      unfold plain. cbn [map fst snd]. fold (plain q) (plain q'). destruct (F k v) as (cs' & G & J); [cbn; rewrite Z.eqb_refl; reflexivity|]. cbn in G. rewrite Z.eqb_refl in G. injection G as ->.
      f_equal; [f_equal; clear - J; induction J as [|x y l l' J F IH]; [reflexivity|cbn [map]; rewrite IH; f_equal; apply J]|].
      apply IH; [exact K|exact N'|]. intros a cs G. assert (a <> k) by (intros ->; apply Nk, dget_some_in; eauto). destruct (F a cs) as (cs2 & G' & J'); [cbn; destruct (a =? k) eqn:E; [lia|exact G]|].
      exists cs2. split; [|exact J']. cbn in G'. destruct (a =? k) eqn:E; [lia|exact G']. }
    apply G; assumption. Qed.

(** Every original instruction has everything seen in the original program. *)
Lemma original_seen o : In o orig -> all_seen orig o.
Proof. intros Ho. split; [exists o; split; [exact Ho|apply Z.eqb_refl]|]. split; [exists o; split; [exact Ho|apply Z.eqb_refl]|]. intros _ _ r Hr. exists o. split; [exact Ho|]. unfold uses. destruct (in_dec Z.eq_dec r (d_used o)); [reflexivity|contradiction]. Qed.
End WholePass.

(** *** No loop is cut short *)
Lemma nf_ok {A} (x : A) : no_fuel_error (Ok x).
Proof. discriminate. Qed.
Lemma nf_bind {A B} (x : result A) (f : A -> result B) : no_fuel_error x -> (forall a, no_fuel_error (f a)) -> no_fuel_error (bind x f).
Proof. destruct x as [a|e]; cbn [bind]; auto. intros H _ X. apply H. congruence. Qed.
Lemma nf_get {A} (d : dict A) k : no_fuel_error (dget_r d k).
Proof. unfold dget_r. destruct (dget d k); discriminate. Qed.
Lemma nf_quot a b : no_fuel_error (quot a b).
Proof. unfold quot. destruct (b =? 0); discriminate. Qed.
Lemma nf_zero x : no_fuel_error x -> no_fuel_error (or_zero x).
Proof. destruct x as [|[]]; cbn; auto; discriminate. Qed.
Lemma nf_ratio d d' k : no_fuel_error (ratio d d' k).
Proof. unfold ratio. apply nf_bind; [apply nf_get|]. intros a. apply nf_bind; [apply nf_get|]. intros b. apply nf_quot. Qed.
Lemma nf_fold {A B} (f : A -> B -> result A) l : (forall a b, no_fuel_error (f a b)) -> forall a, no_fuel_error (foldM f l a).
Proof. intros H. induction l as [|b l IH]; intros a; cbn [foldM]; [apply nf_ok|]. apply nf_bind; auto. Qed.
Lemma nf_map {A B} (f : A -> result B) l : (forall a, no_fuel_error (f a)) -> no_fuel_error (mapM f l).
Proof. intros H. induction l as [|a l IH]; cbn [mapM]; [apply nf_ok|]. apply nf_bind; [apply H|]. intros b. apply nf_bind; [exact IH|intros; apply nf_ok]. Qed.
Lemma nf_checked q : no_fuel_error (checked q).
Proof. unfold checked. destruct (_ || _); discriminate. Qed.
Lemma nf_score c : no_fuel_error (score c).
Proof. unfold score. destruct (c_fn c); [apply nf_ok|apply nf_checked|apply nf_checked]. Qed.
Lemma nf_op prog k a l : no_fuel_error (op_prob prog k a l).
Proof. unfold op_prob. apply nf_bind; [apply nf_get|]. intros i. destruct (fold_left _ i (0, 0, false)) as [[c t] e]. apply nf_bind; [apply nf_quot|intros; apply nf_ok]. Qed.
Lemma nf_walk prog l : forall a b c q, no_fuel_error (walk_down prog l a b c q).
Proof. induction l as [|x l IH]; intros a b c q; cbn [walk_down]; [apply nf_ok|]. apply nf_bind; [apply nf_get|]. intros i. destruct (fold_left _ i (a, b, c)) as [[c' t] e]. destruct (qlt 0 _); [apply nf_ok|apply IH]. Qed.
Lemma nf_finish m prog a s p1 p2 e : no_fuel_error (finish_push_pop m prog a s p1 p2 e).
Proof. unfold finish_push_pop. apply nf_bind; [apply nf_get|]. intros h. apply nf_bind; [apply nf_quot|intros; apply nf_ok]. Qed.
Lemma nf_push m prog fns a f i s : no_fuel_error (compute_push_pop m prog fns a f i s).
Proof. unfold compute_push_pop. destruct (d_kind i).
  all: try apply nf_ok.
  - destruct (dget fns a) as [[? l]|]; [|apply nf_finish]. apply nf_bind; [apply nf_op|]. intros [p1 e]. apply nf_bind; [apply nf_walk|]. intros p2. apply nf_finish.
  - apply nf_bind; [apply nf_op|]. intros [p1 e]. apply nf_finish. Qed.
Lemma nf_near a b c d k : no_fuel_error (near a b c d k).
Proof. unfold near. destruct (0 <? a); [apply nf_bind; [apply nf_quot|intros; apply nf_ok]|apply nf_ok]. Qed.
Lemma nf_frac a b k : no_fuel_error (frac a b k).
Proof. unfold frac. apply nf_bind; [apply nf_quot|intros; apply nf_ok]. Qed.
Lemma nf_best x y : no_fuel_error x -> no_fuel_error y -> no_fuel_error (best x y).
Proof. intros. unfold best. apply nf_bind; [assumption|]. intros. apply nf_bind; [assumption|intros; apply nf_ok]. Qed.
Lemma nf_cfg m prog a i s : no_fuel_error (compute_cfg m prog a i s).
Proof. unfold compute_cfg. apply nf_bind.
  - unfold cfg_result. repeat match goal with |- context [if ?b then _ else _] => destruct b end; repeat apply nf_best; try apply nf_near; try apply nf_frac; apply nf_ok.
  - intros q. destruct (Qeq_bool q 0); [apply nf_ok|]. destruct (qlt 1 q); [discriminate|apply nf_ok]. Qed.
Lemma nf_branch m fns f lo hi i s : no_fuel_error (compute_branch_address m fns f lo hi i s).
Proof. unfold compute_branch_address. destruct (_ || _); [apply nf_ok|]. destruct (d_jump i); [|apply nf_ok]. apply nf_bind; [destruct (_ <=? _); [apply nf_bind; [apply nf_get|intros; apply nf_ok]|apply nf_ok]|].
  intros []; [apply nf_ok|]. destruct (dmem _ _); [apply nf_ok|]. destruct (_ || _); apply nf_ok. Qed.
Lemma nf_candidate m col w fns prog lo hi fn a first c : no_fuel_error (score_candidate m col w fns prog lo hi fn a first c).
Proof. unfold score_candidate. destruct (d_ignore _); [apply nf_ok|].
  apply nf_bind; [apply nf_bind; [apply nf_zero, nf_ratio|intros; apply nf_ok]|]. intros s1.
  apply nf_bind; [apply nf_bind; [apply nf_zero, nf_ratio|intros; apply nf_ok]|]. intros s2.
  apply nf_bind. { unfold compute_registers. destruct (_ || _); [apply nf_ok|]. apply nf_bind; [|intros; apply nf_ok]. apply nf_zero, nf_fold. intros. apply nf_bind; [apply nf_ratio|intros; apply nf_ok]. } intros s3.
  apply nf_bind; [apply nf_push|]. intros s4. apply nf_bind; [apply nf_branch|]. intros s5. apply nf_bind; [destruct first; [apply nf_ok|apply nf_cfg]|intros; apply nf_ok]. Qed.
Lemma nf_recover m col fns p : no_fuel_error (recover m col fns p).
Proof. unfold recover. destruct (sort_by _ _) as [|lo rest]; [discriminate|]. generalize (last (lo :: rest) lo) true. generalize (plain p) at 2. generalize (collect_program (mkWith [] [] []) (plain p)). generalize lo at 2. generalize (lo :: rest). revert p.
  intros p l. revert p. induction l as [|a l IH]; intros p fn w prog hi first; cbn [recover_addresses]; [apply nf_ok|]. apply nf_bind; [apply nf_get|]. intros cs. apply nf_bind; [|intros; apply IH]. apply nf_map. intros c. apply nf_candidate. Qed.

(** A pass changes scores only, whatever the program. *)
Lemma candidate_inst m col w fns prog lo hi fn a first c c' : score_candidate m col w fns prog lo hi fn a first c = Ok c' -> c_inst c' = c_inst c.
Proof. unfold score_candidate. destruct (d_ignore _); [intros H; congruence|].
  repeat match goal with |- bind ?x _ = _ -> _ => destruct x; cbn [bind]; [|discriminate] end. intros H. injection H as <-. reflexivity. Qed.
Lemma labels_dset {B} (id : cand -> B) cs' : forall (p : cprogram) a cs, dget p a = Some cs -> map id cs' = map id cs -> labels id (dset p a cs') = labels id p.
Proof. induction p as [|[k v] p IH]; intros a cs G E; [discriminate|]. cbn [dget dset] in *. destruct (a =? k) eqn:Ek; [injection G as <-; cbn [labels map fst snd]; rewrite E; f_equal; f_equal; lia|].
  cbn [labels map fst snd]. f_equal. apply (IH a cs G E). Qed.
Lemma recover_labels m col fns p p' : recover m col fns p = Ok p' -> labels c_inst p' = labels c_inst p.
Proof. unfold recover. destruct (sort_by _ _) as [|lo rest]; [discriminate|]. generalize (last (lo :: rest) lo) true. generalize (plain p) at 2. generalize (collect_program (mkWith [] [] []) (plain p)). generalize lo at 2. generalize (lo :: rest). revert p p'.
  intros p p' l. revert p. induction l as [|a l IH]; intros p fn w prog hi first; cbn [recover_addresses]; [intros H; injection H as <-; reflexivity|].
  unfold dget_r. destruct (dget p a) as [cs|] eqn:G; cbn [bind]; [|discriminate]. destruct (mapM _ cs) as [cs'|] eqn:E; cbn [bind]; [|discriminate]. intros H. apply IH in H. rewrite H.
  apply labels_dset with (cs := cs); [exact G|]. apply mapM_forall2 in E. clear - E. induction E as [|c c' l l' E F I]; [reflexivity|]. cbn [map]. rewrite I. f_equal. eapply candidate_inst, E. Qed.
