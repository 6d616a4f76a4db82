(** C171: the share of a kind of instruction at and near an address. *)
From Verif Require Import ListLemmas NearModel.
From Coq Require Import ZifyBool ZifyNat Lqa Qfield.
Open Scope Z_scope.

(** ** Specification *)
Definition in_play (x : cand) : bool := negb (d_ignore (c_inst x)).
Definition count (f : cand -> bool) (l : list cand) : Z := Z.of_nat (length (filter f l)).
(** [ss] are the positive scores of those candidates in play for which [f] holds, in
    order. *)
Inductive positive_scores (f : cand -> bool) : list cand -> list Q -> Prop :=
| ps_nil : positive_scores f [] []
| ps_take x l s ss : in_play x = true -> score x = Ok s -> (0 < s)%Q -> f x = true -> positive_scores f l ss -> positive_scores f (x :: l) (s :: ss)
| ps_skip x l ss : in_play x = false \/ (exists s, score x = Ok s /\ ((s <= 0)%Q \/ f x = false)) -> positive_scores f l ss -> positive_scores f (x :: l) ss.
Definition sum (l : list Q) : Q := fold_right Qplus 0%Q l.
Definition mean (l : list Q) (q : Q) : Prop := (q * inject_Z (Z.of_nat (length l)) == sum l)%Q.
Definition nonempty (l : list Q) : bool := match l with [] => false | _ => true end.

(** ** C171 *)
Lemma prob_fold is_a l : forall c t, fold_left (prob_step is_a) l (c, t) = (c + count (fun x => in_play x && is_a (c_inst x)) l, t + count in_play l).
Proof. unfold count. induction l as [|x l IH]; intros c t; cbn [fold_left filter length]; [f_equal; lia|]. unfold prob_step at 2. assert (P : in_play x = negb (d_ignore (c_inst x))) by reflexivity. rewrite P. destruct (d_ignore (c_inst x)); cbn [negb andb]; [apply IH|]. rewrite IH. cbn [length]. destruct (is_a (c_inst x)); cbn [length]; f_equal; lia. Qed.
Theorem C171_share : forall is_a prog addr,
  (dget prog addr = None -> prob_of_a is_a prog addr = Err KeyError) /\
  forall l, dget prog addr = Some l -> exists q, prob_of_a is_a prog addr = Ok q /\ (0 <= q <= 1)%Q /\
    (q * inject_Z (count in_play l) == inject_Z (count (fun x => in_play x && is_a (c_inst x)) l))%Q.
Proof.
  intros is_a prog addr. unfold prob_of_a, dget_r. split; [intros ->; reflexivity|]. intros l ->. cbn [bind]. rewrite prob_fold. rewrite !Z.add_0_l.
  assert (L : 0 <= count (fun x => in_play x && is_a (c_inst x)) l <= count in_play l).
  { unfold count. split; [lia|]. apply inj_le. clear. induction l as [|x l IH]; cbn [filter length]; [lia|]. destruct (in_play x); cbn [andb]; [|exact IH]. destruct (is_a (c_inst x)); cbn [length]; lia. }
  set (c := count (fun x => in_play x && is_a (c_inst x)) l) in *. set (t := count in_play l) in *. clearbody c t. destruct (Z.ltb_spec 0 t) as [P|P].
  - unfold quot. destruct (Z.eqb_spec t 0) as [->|_]; [lia|]. assert (Pq : (0 < inject_Z t)%Q) by (change 0%Q with (inject_Z 0); rewrite <- Zlt_Qlt; exact P).
    eexists. split; [reflexivity|]. split; [|field; intros X; rewrite X in Pq; discriminate].
    assert (Lq : (0 <= inject_Z c <= inject_Z t)%Q) by (change 0%Q with (inject_Z 0); rewrite <- !Zle_Qle; exact L).
    split; [apply Qle_shift_div_l; [exact Pq|lra]|apply Qle_shift_div_r; [exact Pq|lra]].
  - assert (t = 0) as -> by lia. assert (c = 0) as -> by lia. exists 0%Q. split; [reflexivity|]. split; [lra|reflexivity]. Qed.
Print Assumptions C171_share.

Lemma in_towards a b k : In k (towards a b) <-> a <= k < b \/ b < k <= a.
Proof. unfold towards. destruct (Z.ltb_spec b a).
  - rewrite in_map_iff. split; [intros (j & <- & J); apply in_zrange in J; lia|]. intros K. exists (a - k). split; [lia|]. apply in_zrange. lia.
  - rewrite in_zrange. lia. Qed.
Lemma towards_length a b : Z.of_nat (length (towards a b)) = Z.abs (b - a).
Proof. unfold towards. destruct (Z.ltb_spec b a); [rewrite map_length|]; rewrite zrange_length; lia. Qed.
Lemma qlt_true a b : qlt a b = true <-> (a < b)%Q.
Proof. unfold qlt. rewrite negb_true_iff. split; intros H; [apply Qnot_le_lt; intros X; apply Qle_bool_iff in X; congruence|]. destruct (Qle_bool b a) eqn:E; [apply Qle_bool_iff in E; lra|reflexivity]. Qed.
Lemma near_fold f l : forall t u t' u', foldM (near_step f) l (t, u) = Ok (t', u') -> exists ss, positive_scores f l ss /\ t' = t + Z.of_nat (length ss) /\ (u' == u + sum ss)%Q.
Proof. induction l as [|x l IH]; intros t u t' u'; cbn [foldM].
  - intros E. injection E as <- <-. exists []. split; [constructor|]. split; [cbn; lia|]. cbn. ring.
  - unfold near_step at 1. destruct (d_ignore (c_inst x)) eqn:I.
    + cbn [bind]. intros E. destruct (IH _ _ _ _ E) as (ss & A & B). exists ss. split; [apply ps_skip; [left; unfold in_play; now rewrite I|exact A]|exact B].
    + destruct (score x) as [s|] eqn:S; [|discriminate]. cbn [bind]. destruct (qlt 0 s) eqn:P.
      * apply qlt_true in P. destruct (f x) eqn:F; cbn [andb bind fst snd]; intros E; destruct (IH _ _ _ _ E) as (ss & A & B & C).
        -- exists (s :: ss). split; [apply ps_take; auto; unfold in_play; now rewrite I|]. split; [cbn [length]; lia|]. rewrite C. cbn [sum fold_right]. fold (sum ss). ring.
        -- exists ss. split; [apply ps_skip; [right; exists s; auto|exact A]|split; assumption].
      * cbn [andb bind]. intros E. destruct (IH _ _ _ _ E) as (ss & A & B). exists ss. split; [apply ps_skip; [right; exists s; split; [exact S|left]|exact A]|exact B].
        apply Qnot_lt_le. intros X. apply qlt_true in X. congruence. Qed.
Lemma positive_all f l ss : positive_scores f l ss -> Forall (fun s => (0 < s)%Q) ss.
Proof. induction 1; auto. Qed.
Lemma sum_sign ss : Forall (fun s => (0 < s)%Q) ss -> (0 <= sum ss)%Q /\ (ss <> [] -> (0 < sum ss)%Q).
Proof. induction 1 as [|s ss P H [IH _]]; [split; [cbn; lra|contradiction]|]. cbn [sum fold_right]. fold (sum ss). split; [|intros _]; lra. Qed.

(** What the two arguments of the range mean: an instruction before the address is at a
    positive distance, and the second bound is left out. *)
Theorem C171_near_refuted : exists f prog addr x s, dget prog (addr - 4) = Some [x] /\ (forall k, k <> addr - 4 -> dget prog k = None) /\ f x = true /\ in_play x = true /\ score x = Ok s /\ (0 < s)%Q /\
  range_probs f prog addr (-1) 0 = Ok [] /\ range_probs f prog addr 0 1 = Ok [] /\ exists q, range_probs f prog addr 1 2 = Ok [q] /\ (q == s)%Q.
Proof.
  exists (fun _ => true), [(0, [mkCand (mkD 7 0 false 14 1 [] [] [] [] [] false KOther None) [(Kpc, 1 # 2)] AddScore])], 4, (mkCand (mkD 7 0 false 14 1 [] [] [] [] [] false KOther None) [(Kpc, 1 # 2)] AddScore), (0 + (1 # 2))%Q.
  split; [reflexivity|]. split; [intros k K; cbn [dget]; destruct (Z.eqb_spec k 0); [lia|reflexivity]|]. do 3 (split; [reflexivity|]). split; [reflexivity|]. split; [vm_compute; reflexivity|]. split; [vm_compute; reflexivity|].
  eexists. split; [vm_compute; reflexivity|]. reflexivity. Qed.
Print Assumptions C171_near_refuted.

(** The result has the mean of the positive scores of the matching candidates, for
    every distance from [a] on up to but without [b] where there are any; [k]
    instructions before the address if [k] is positive. *)
Theorem C171_near_partial : forall f prog addr a b ph, range_probs f prog addr a b = Ok ph ->
  exists (distances : list Z) (found : Z -> list Q),
    (forall k, In k distances <-> a <= k < b \/ b < k <= a) /\ Z.of_nat (length distances) = Z.abs (b - a) /\
    (forall i k, nth_error distances i = Some k -> k = if b <? a then a - Z.of_nat i else a + Z.of_nat i) /\
    (forall k, In k distances -> match dget prog (addr - 4 * k) with Some l => positive_scores f l (found k) | None => found k = [] end) /\
    Forall2 mean (filter nonempty (map found distances)) ph.
Proof.
  intros f prog addr a b ph E. exists (towards a b).
  assert (X : exists found : Z -> list Q, (forall k, In k (towards a b) -> match dget prog (addr - 4 * k) with Some l => positive_scores f l (found k) | None => found k = [] end) /\ Forall2 mean (filter nonempty (map found (towards a b))) ph).
  2: { destruct X as (found & A & B). exists found. split; [apply in_towards|]. split; [apply towards_length|]. split; [|split; assumption].
       intros i k I. unfold towards in I. destruct (b <? a) eqn:L.
       - rewrite nth_error_map in I. destruct (nth_error (zrange 0 (a - b)) i) as [j|] eqn:J; [|discriminate]. cbn in I. injection I as <-.
         assert (Li : (i < Z.to_nat (a - b - 0))%nat) by (rewrite <- zrange_length; apply nth_error_Some; congruence). rewrite nth_error_zrange in J by exact Li. injection J as <-. lia.
       - assert (Li : (i < Z.to_nat (b - a))%nat) by (rewrite <- zrange_length; apply nth_error_Some; congruence). rewrite nth_error_zrange in I by exact Li. congruence. }
  assert (Nd : NoDup (towards a b)). { unfold towards. destruct (b <? a); [|apply zrange_nodup]. apply nodup_map_in; [apply zrange_nodup|]. intros; lia. }
  unfold range_probs in E.
  assert (G : forall ks ph0 ph, NoDup ks -> foldM (near_address f prog addr) ks ph0 = Ok ph -> exists found ph1, ph = ph0 ++ ph1 /\ (forall k, In k ks -> match dget prog (addr - 4 * k) with Some l => positive_scores f l (found k) | None => found k = [] end) /\ Forall2 mean (filter nonempty (map found ks)) ph1).
  { clear. induction ks as [|k ks IH]; intros ph0 ph N E; cbn [foldM] in E.
    - injection E as <-. exists (fun _ => []), []. split; [now rewrite app_nil_r|]. split; [intros k []|constructor].
    - destruct (near_address f prog addr ph0 k) as [ph'|] eqn:E1; [|discriminate]. cbn [bind] in E. inversion N as [|? ? Nk N']; subst. destruct (IH _ _ N' E) as (found & ph1 & -> & A & B).
      assert (Y : exists ss q, (match dget prog (addr - 4 * k) with Some l => positive_scores f l ss | None => ss = [] end) /\ ph' = ph0 ++ q /\ Forall2 mean (filter nonempty [ss]) q).
      { unfold near_address in E1. destruct (dget prog (addr - 4 * k)) as [l|]; [|injection E1 as <-; exists [], []; split; [reflexivity|]; split; [now rewrite app_nil_r|constructor]].
        destruct (foldM (near_step f) l (0, 0%Q)) as [[t u]|] eqn:Ef; [|discriminate]. cbn [bind] in E1. destruct (near_fold _ _ _ _ _ _ Ef) as (ss & P & T & U). exists ss.
        pose proof (sum_sign ss (positive_all _ _ _ P)) as [S0 S1]. destruct (qlt 0 u) eqn:Q.
        - apply qlt_true in Q. destruct (Z.eqb_spec t 0) as [|Tn]; [discriminate|]. injection E1 as <-. eexists. split; [exact P|]. split; [reflexivity|]. destruct ss as [|s ss]; [cbn in U; lra|].
          cbn [filter nonempty]. constructor; [|constructor]. unfold mean. rewrite <- (Z.add_0_l (Z.of_nat _)), <- T. rewrite U, Qplus_0_l. field. intros X. apply Tn. unfold Qeq in X. cbn [inject_Z Qnum Qden] in X. lia.
        - injection E1 as <-. exists []. split; [exact P|]. split; [now rewrite app_nil_r|]. destruct ss as [|s ss]; [constructor|]. exfalso. assert (X : (0 < u)%Q) by (rewrite U, Qplus_0_l; apply S1; discriminate). apply qlt_true in X. congruence. }
      destruct Y as (ss & q & Y1 & -> & Y2). exists (fun j => if j =? k then ss else found j), (q ++ ph1). split; [now rewrite app_assoc|]. split.
      + intros j [<-|J]; [rewrite Z.eqb_refl; exact Y1|]. destruct (Z.eqb_spec j k) as [->|]; [contradiction|apply A, J].
      + cbn [map]. rewrite Z.eqb_refl. change (ss :: ?l) with ([ss] ++ l). rewrite filter_app. apply Forall2_app; [exact Y2|].
        erewrite map_ext_in; [exact B|]. intros j J. cbn beta. destruct (Z.eqb_spec j k) as [->|]; [contradiction|reflexivity]. }
  destruct (G _ _ _ Nd E) as (found & ph1 & -> & A & B). exists found. split; assumption. Qed.
Print Assumptions C171_near_partial.

(** Each value lies between two scores of matching candidates, so is no probability
    unless the scores are. *)
Lemma mean_between ss q : ss <> [] -> mean ss q -> exists lo hi, In lo ss /\ In hi ss /\ (lo <= q <= hi)%Q.
Proof. intros Ne M.
  assert (X : forall ss, ss <> [] -> exists lo hi, In lo ss /\ In hi ss /\ Forall (fun s => (lo <= s <= hi)%Q) ss).
  { clear. induction ss as [|s ss IH]; [contradiction|]. intros _. destruct ss as [|s' ss]; [exists s, s; split; [left; auto|]; split; [left; auto|]; constructor; [lra|constructor]|].
    destruct (IH ltac:(discriminate)) as (lo & hi & A & B & C). exists (if Qlt_le_dec s lo then s else lo), (if Qlt_le_dec hi s then s else hi).
    destruct (Qlt_le_dec s lo), (Qlt_le_dec hi s); (split; [try (left; reflexivity); right; exact A|]); (split; [try (left; reflexivity); right; exact B|]); (constructor; [lra|]); eapply Forall_impl; try exact C; cbn; intros; lra. }
  destruct (X ss Ne) as (lo & hi & A & B & C). exists lo, hi. split; [exact A|]. split; [exact B|].
  assert (S : (lo * inject_Z (Z.of_nat (length ss)) <= sum ss <= hi * inject_Z (Z.of_nat (length ss)))%Q).
  { clear -C. induction C as [|s ss P C IH]; [cbn [length sum fold_right]; change (inject_Z (Z.of_nat 0)) with 0%Q; lra|]. cbn [length sum fold_right]. fold (sum ss). rewrite Nat2Z.inj_succ, <- Z.add_1_r, inject_Z_plus. change (inject_Z 1) with 1%Q. lra. }
  unfold mean in M. rewrite <- M in S. assert (P : (0 < inject_Z (Z.of_nat (length ss)))%Q) by (change 0%Q with (inject_Z 0); rewrite <- Zlt_Qlt; destruct ss; [contradiction|cbn [length]; lia]).
  split; (eapply Qmult_lt_0_le_reg_r; [exact P|]); lra. Qed.
Theorem C171_bounds : forall f prog addr a b ph q, range_probs f prog addr a b = Ok ph -> In q ph ->
  exists k l x y lo hi, (a <= k < b \/ b < k <= a) /\ dget prog (addr - 4 * k) = Some l /\ In x l /\ In y l /\ in_play x = true /\ in_play y = true /\ f x = true /\ f y = true /\
    score x = Ok lo /\ score y = Ok hi /\ (0 < lo)%Q /\ (lo <= q <= hi)%Q.
Proof.
  intros f prog addr a b ph q E I. destruct (C171_near_partial _ _ _ _ _ _ E) as (ds & found & D & _ & _ & A & B).
  assert (X : exists ss, In ss (filter nonempty (map found ds)) /\ mean ss q). { clear -B I. induction B; [destruct I|]. destruct I as [<-|I]; [eexists; split; [left; reflexivity|assumption]|]. destruct (IHB I) as (ss & S & M). exists ss. split; [right; exact S|exact M]. }
  destruct X as (ss & S & M). apply filter_In in S as [S Ne]. apply in_map_iff in S as (k & <- & K). specialize (A k K). apply D in K. destruct (dget prog (addr - 4 * k)) as [l|] eqn:G; [|rewrite A in Ne; discriminate].
  assert (Ne' : found k <> []) by (intros Z0; rewrite Z0 in Ne; discriminate). destruct (mean_between _ _ Ne' M) as (lo & hi & Lo & Hi & Bt).
  assert (W : forall s, In s (found k) -> exists x, In x l /\ in_play x = true /\ f x = true /\ score x = Ok s).
  { intros s. clear -A. induction A as [|x l s' ss P Sx _ Fx _ IH|x l ss _ _ IH]; [intros []| |]; [intros [<-|X]; [exists x; repeat split; auto; left; reflexivity|]|intros X]; destruct (IH X) as (y & Y & Z0); exists y; (split; [right; exact Y|exact Z0]). }
  destruct (W lo Lo) as (x & X1 & X2 & X3 & X4). destruct (W hi Hi) as (y & Y1 & Y2 & Y3 & Y4). exists k, l, x, y, lo, hi. do 10 (split; [assumption|]). split; [|exact Bt].
  pose proof (positive_all _ _ _ A) as Pa. rewrite Forall_forall in Pa. apply Pa, Lo. Qed.
Print Assumptions C171_bounds.
(** Two candidates that match before the address, with one ignored; the mean is above one. *)
Example C171_example : exists prog ph, range_probs (fun x => d_cond (c_inst x) =? 14) prog 8 2 0 = Ok ph /\ Forall2 Qeq ph [5 # 4; 1 # 2] /\ exists q, prob_of_a (fun i => d_op i =? 1) prog 0 = Ok q /\ (q == 2 # 3)%Q.
Proof.
  exists [(0, [mkCand (mkD 1 0 false 14 1 [] [] [] [] [] false KOther None) [(Kpc, 1 # 2)] AddScore; mkCand (mkD 2 0 false 14 2 [] [] [] [] [] false KOther None) [(Kpc, 1%Q); (Kpr, 1%Q)] AddScore; mkCand (mkD 3 0 false 0 1 [] [] [] [] [] false KOther None) [(Kpc, 1%Q)] AddScore; mkCand (mkD 4 0 true 14 1 [] [] [] [] [] false KOther None) [(Kpc, 1%Q)] AddScore]);
          (4, [mkCand (mkD 5 4 false 14 1 [] [] [] [] [] false KOther None) [(Kpc, 1 # 2)] AddScore])].
  eexists. split; [vm_compute; reflexivity|]. split; [repeat constructor|]. eexists. split; [vm_compute; reflexivity|]. reflexivity. Qed.
