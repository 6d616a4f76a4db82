(** Lemmas about whole recovery passes and the removal of candidates. *)
From Verif Require Import ListLemmas FlipModel FlipProofs InstModel MetaModel MetaSpec MetaProofs MetaProps RecModel RecSpec RecProofs RecProofs2.
From Coq Require Import ZifyBool ZifyNat Permutation Sorted Lqa.

Lemma mapM_forall2 {A B} (f : A -> result B) l : forall l', mapM f l = Ok l' <-> Forall2 (fun a b => f a = Ok b) l l'.
Proof. induction l as [|a l IH]; intros l'; cbn [mapM].
  - split; intros H; [injection H as <-; constructor|inversion H; reflexivity].
  - split.
    + intros H. destruct (f a) as [b|] eqn:E; cbn [bind] in H; [|discriminate]. destruct (mapM f l) as [bs|] eqn:El; cbn [bind] in H; [|discriminate]. injection H as <-.
      constructor; [exact E|apply IH; reflexivity].
    + intros H. inversion H as [|? b ? bs E F]; subst. rewrite E. cbn [bind]. apply IH in F. rewrite F. reflexivity. Qed.
Lemma mapM_errors {A B} (f : A -> result B) l : (forall a, In a l -> kind_errors (f a)) -> kind_errors (mapM f l).
Proof. induction l as [|a l IH]; intros H; cbn [mapM]; [apply ok_errors|]. apply bind_errors; [apply H; left; reflexivity|]. intros b _. apply bind_errors; [apply IH; intros; apply H; right; assumption|]. intros; apply ok_errors. Qed.

Definition fn_after (fns : functions) (fn : Z) (l : list Z) : Z := fold_left (fun f a => if dmem fns a then a else f) l fn.

Section Pass.
Context (m : pmodel) (col : collector) (w : addresses_with) (fns : functions) (prog : dprogram) (lo hi : Z).

(** The walk over the addresses, address by address. *)
Lemma recover_addresses_spec : forall addrs first fn p0, NoDup addrs -> (forall a, In a addrs -> In a (dkeys p0)) ->
  (kind_errors (recover_addresses m col w fns prog lo hi fn first addrs p0) \/
   exists a cs c fn' first', In a addrs /\ dget p0 a = Some cs /\ In c cs /\ ~ kind_errors (score_candidate m col w fns prog lo hi fn' a first' c)) /\
  forall p', recover_addresses m col w fns prog lo hi fn first addrs p0 = Ok p' ->
    dkeys p' = dkeys p0 /\ (forall a, ~ In a addrs -> dget p' a = dget p0 a) /\
    forall pre a post, addrs = pre ++ a :: post -> exists cs cs', dget p0 a = Some cs /\ dget p' a = Some cs' /\
      Forall2 (fun c c' => score_candidate m col w fns prog lo hi (fn_after fns fn (pre ++ [a])) a (match pre with [] => first | _ => false end) c = Ok c') cs cs'.
Proof. induction addrs as [|x addrs IH]; intros first fn p0 N I; cbn [recover_addresses].
  - split; [left; apply ok_errors|]. intros p' H. injection H as <-. split; [reflexivity|]. split; [reflexivity|]. intros [|y pre] a post H; discriminate.
  - inversion N as [|? ? Nx N']; subst. assert (Ix : In x (dkeys p0)) by (apply I; left; reflexivity).
    apply dget_some_in in Ix. destruct Ix as (cs & Ecs). unfold dget_r. rewrite Ecs. cbn [bind].
    set (fn' := if dmem fns x then x else fn).
    destruct (mapM (score_candidate m col w fns prog lo hi fn' x first) cs) as [cs'|e] eqn:Em; cbn [bind].
    + assert (Dk : dkeys (dset p0 x cs') = dkeys p0). { rewrite dkeys_dset. unfold dmem. rewrite Ecs. reflexivity. }
      destruct (IH false fn' (dset p0 x cs') N') as [A B]. { intros a Ha. rewrite Dk. apply I. right; exact Ha. }
      split.
      * destruct A as [A|(a & cs1 & c & f1 & f2 & A1 & A2 & A3 & A4)]; [left; exact A|]. right. exists a, cs1, c, f1, f2.
        assert (a <> x) by (intros ->; contradiction). rewrite dget_dset_other in A2 by assumption. split; [right; exact A1|auto].
      * intros p' H. destruct (B p' H) as (B1 & B2 & B3). split; [congruence|]. split.
        -- intros a Ha. rewrite B2 by (intros X; apply Ha; right; exact X). apply dget_dset_other. intros ->. apply Ha. left; reflexivity.
        -- intros pre a post E. destruct pre as [|y pre].
           ++ cbn [app] in E. assert (a = x) as -> by congruence. exists cs, cs'. split; [exact Ecs|]. split; [rewrite B2 by exact Nx; apply dget_dset_same|].
              cbn [app fn_after fold_left]. apply mapM_forall2. exact Em.
           ++ cbn [app] in E. assert (y = x) as -> by congruence. assert (addrs = pre ++ a :: post) as Ea by congruence.
              destruct (B3 pre a post Ea) as (c1 & c2 & C1 & C2 & C3). exists c1, c2.
              assert (a <> x). { intros ->. apply Nx. rewrite Ea. apply in_app_iff. right; left; reflexivity. }
              rewrite dget_dset_other in C1 by assumption. split; [exact C1|]. split; [exact C2|]. cbn [app fn_after fold_left]. fold fn'. destruct pre; exact C3.
    + split; [|discriminate]. assert (D : kind_errors (@Err cprogram e) \/ ~ kind_errors (@Err cprogram e)).
      { destruct e; try (left; intros e' H; injection H as <-; auto; fail); right; intros K; specialize (K _ eq_refl); destruct K; discriminate. }
      destruct D as [D|D]; [left; exact D|]. right.
      assert (X : exists c, In c cs /\ score_candidate m col w fns prog lo hi fn' x first c = Err e).
      { clear - Em. revert Em. induction cs as [|c cs IH]; cbn [mapM]; [discriminate|]. destruct (score_candidate m col w fns prog lo hi fn' x first c) as [b|e'] eqn:E; cbn [bind].
        - destruct (mapM _ cs) as [bs|e'']; cbn [bind]; [discriminate|]. intros H. destruct IH as (c0 & I0 & E0); [congruence|]. exists c0. split; [right; exact I0|exact E0].
        - intros H. exists c. split; [left; reflexivity|congruence]. }
      destruct X as (c & Hc & Ec). exists x, cs, c, fn', first. split; [left; reflexivity|]. split; [exact Ecs|]. split; [exact Hc|]. rewrite Ec. intros K. apply D. intros e' H. apply K. congruence. Qed.
End Pass.

(** *** recover *)
Lemma sorted_keys (l : list Z) : NoDup l -> NoDup (sort_by (fun a => a) l) /\ (forall a, In a (sort_by (fun a => a) l) <-> In a l) /\ StronglySorted Z.le (sort_by (fun a => a) l).
Proof. intros N. pose proof (sort_by_perm (fun a : Z => a) l) as P. split; [eapply Permutation_NoDup; [apply Permutation_sym, P|exact N]|].
  split; [|apply (sort_by_sorted (fun a : Z => a))]. intros a. split; apply Permutation_in; [exact P|apply Permutation_sym, P]. Qed.

Lemma fn_after_in fns fn l : (fn_after fns fn l = fn /\ forall a, In a l -> dmem fns a = false) \/ (In (fn_after fns fn l) l /\ dmem fns (fn_after fns fn l) = true).
Proof. unfold fn_after. revert fn. induction l as [|x l IH]; intros fn; cbn [fold_left]; [left; split; [reflexivity|intros a []]|].
  destruct (dmem fns x) eqn:E.
  - destruct (IH x) as [[A B]|[A B]]; right; [rewrite A; split; [left; reflexivity|exact E]|split; [right; exact A|exact B]].
  - destruct (IH fn) as [[A B]|[A B]]; [left; split; [exact A|intros a [<-|H]; auto]|right; split; [right; exact A|exact B]]. Qed.

Lemma fn_after_last fns fn l : StronglySorted Z.le l -> forall x, In x l -> dmem fns x = true -> x <= fn_after fns fn l.
Proof. intros S. revert fn. induction S as [|y l Sl IH F]; intros fn x []; intros E; cbn [fn_after fold_left].
  - subst y. rewrite E. destruct (fn_after_in fns x l) as [[A _]|[A _]]; [change (x <= fn_after fns x l); lia|]. rewrite Forall_forall in F. apply F in A. exact A.
  - apply IH; assumption. Qed.

Lemma sorted_split (pre post : list Z) a : StronglySorted Z.le (pre ++ a :: post) -> NoDup (pre ++ a :: post) -> StronglySorted Z.le (pre ++ [a]) /\ (forall x, In x pre -> x < a) /\ (forall x, In x post -> a < x).
Proof. induction pre as [|y pre IH]; cbn [app]; intros S N.
  - inversion S as [|? ? S' F]; subst. inversion N as [|? ? N1 N2]; subst. split; [repeat constructor|]. split; [intros x []|]. intros x Hx. rewrite Forall_forall in F. specialize (F x Hx).
    assert (x <> a) by (intros ->; contradiction). lia.
  - inversion S as [|? ? S' F]; subst. inversion N as [|? ? N1 N2]; subst. destruct (IH S' N2) as (A & B & C). rewrite Forall_forall in F. split.
    + constructor; [exact A|]. apply Forall_forall. intros x Hx. apply F. rewrite in_app_iff in *. cbn [In] in *. tauto.
    + split; [|exact C]. intros x [<-|Hx]; [|auto]. assert (Ha : In a (pre ++ a :: post)) by (apply in_app_iff; right; left; reflexivity). specialize (F a Ha).
      assert (y <> a) by (intros ->; contradiction). lia. Qed.

Lemma recover_unfold m col fns p lo rest : sort_by (fun a => a) (dkeys p) = lo :: rest ->
  recover m col fns p = recover_addresses m col (collect_program (mkWith [] [] []) (plain p)) fns (plain p) lo (last (lo :: rest) lo) lo true (lo :: rest) p.
Proof. intros E. unfold recover. rewrite E. reflexivity. Qed.

Lemma recover_spec m col fns p : NoDup (dkeys p) ->
  let prog := plain p in let w := collect_program (mkWith [] [] []) prog in
  (forall p', recover m col fns p = Ok p' -> exists lo hi,
     In lo (dkeys p) /\ (forall x, In x (dkeys p) -> lo <= x) /\ In hi (dkeys p) /\ (forall x, In x (dkeys p) -> x <= hi) /\
     dkeys p' = dkeys p /\ forall a cs, dget p a = Some cs -> exists fn first cs', current_function fns (dkeys p) a fn /\ (first = true <-> a = lo) /\ dget p' a = Some cs' /\
       Forall2 (fun c c' => score_candidate m col w fns prog lo hi fn a first c = Ok c') cs cs') /\
  (forall e, recover m col fns p = Err e -> p = [] \/ e = KeyError \/ e = ZeroDivisionError \/
     exists a cs c lo hi fn' first', dget p a = Some cs /\ In c cs /\ ~ kind_errors (score_candidate m col w fns prog lo hi fn' a first' c)).
Proof. intros N. cbv zeta. destruct (sorted_keys (dkeys p) N) as (N' & I & S).
  destruct (sort_by (fun a => a) (dkeys p)) as [|lo rest] eqn:Es.
  - assert (p = []) as ->. { destruct p as [|[k v] p]; [reflexivity|]. exfalso. apply (I k). left; reflexivity. } split; [discriminate|auto].
  - rewrite (recover_unfold m col fns p lo rest Es). clear Es. remember (lo :: rest) as addrs eqn:Ea. set (hi := last addrs lo).
    assert (Lo : forall x, In x (dkeys p) -> lo <= x). { intros x Hx. apply I in Hx. clear - S Hx Ea. subst addrs. inversion S as [|? ? _ F]; subst. rewrite Forall_forall in F. destruct Hx as [->|Hx]; [lia|apply F, Hx]. }
    assert (Hi : In hi addrs /\ forall x, In x addrs -> x <= hi).
    { destruct (exists_last (l := addrs)) as (l & y & El); [rewrite Ea; discriminate|]. unfold hi. rewrite El, last_last. split; [apply in_app_iff; right; left; reflexivity|].
      intros x Hx. rewrite El in S, N'. apply in_app_iff in Hx. destruct Hx as [Hx|[<-|[]]]; [|lia]. destruct (sorted_split l [] y S N') as (_ & X & _). specialize (X x Hx). lia. }
    destruct (recover_addresses_spec m col (collect_program (mkWith [] [] []) (plain p)) fns (plain p) lo hi addrs true lo p N') as [A B]; [intros a Ha; apply I, Ha|].
    split.
    + intros p' H. destruct (B p' H) as (B1 & B2 & B3). exists lo, hi. split; [apply I; rewrite Ea; left; reflexivity|]. split; [exact Lo|]. split; [apply I, Hi|].
      split; [intros x Hx; apply Hi, I, Hx|]. split; [exact B1|]. intros a cs G. assert (Ha : In a addrs) by (apply I, dget_some_in; eauto).
      destruct (in_split a addrs Ha) as (pre & post & E). destruct (B3 pre a post E) as (cs0 & cs' & G0 & G' & F).
      assert (cs0 = cs) as -> by congruence. exists (fn_after fns lo (pre ++ [a])), (match pre with [] => true | _ => false end), cs'.
      pose proof S as S0. pose proof N' as N0. rewrite E in S0, N0. destruct (sorted_split pre post a S0 N0) as (S1 & S2 & S3).
      split; [|split; [|split; [exact G'|exact F]]].
      * destruct (fn_after_in fns lo (pre ++ [a])) as [[X Y]|[X Y]].
        -- right. rewrite X. split; [|split; [apply I; rewrite Ea; left; reflexivity|exact Lo]]. intros x Hx Ex. destruct (Z.le_gt_cases x a) as [L|L]; [|exact L]. exfalso.
           apply I in Hx. rewrite E in Hx. apply in_app_iff in Hx. assert (Hp : In x (pre ++ [a])). { apply in_app_iff. destruct Hx as [Hx|[<-|Hx]]; [left; exact Hx|right; left; reflexivity|specialize (S3 x Hx); lia]. }
           rewrite (Y x Hp) in Ex. discriminate.
        -- left. split; [apply I; rewrite E; rewrite in_app_iff in *; cbn [In] in *; tauto|]. split; [exact Y|]. split.
           ++ apply in_app_iff in X. destruct X as [X|[X|[]]]; [apply S2 in X; lia|lia].
           ++ intros x Hx Ex L. apply fn_after_last; [exact S1| |exact Ex]. apply I in Hx. rewrite E in Hx. apply in_app_iff in Hx. apply in_app_iff.
              destruct Hx as [Hx|[<-|Hx]]; [left; exact Hx|right; left; reflexivity|specialize (S3 x Hx); lia].
      * rewrite Ea in E. destruct pre as [|y pre]; cbn [app] in E; [split; [intros _; congruence|reflexivity]|]. split; [discriminate|]. intros ->. assert (y = lo) as -> by congruence. specialize (S2 lo ltac:(left; reflexivity)). lia.
    + intros e H. right. destruct A as [A|(a & cs & c & f1 & f2 & A1 & A2 & A3 & A4)]; [destruct (A e H); auto|]. right; right. exists a, cs, c, lo, hi, f1, f2. auto. Qed.

(** *** The value of the removal score *)
Lemma lowest_fold s : forall lo0, let lo := fold_left (fun lo kv => if qlt (snd kv) lo then snd kv else lo) s lo0 in
  (lo <= lo0)%Q /\ (forall (k : Z) q, In (k, q) s -> (lo <= q)%Q) /\ (lo = lo0 \/ exists k : Z, In (k, lo) s).
Proof. induction s as [|[k q] s IH]; intros lo0; cbn [fold_left]; [split; [lra|split; [intros k q []|auto]]|].
  cbn [snd]. specialize (IH (if qlt q lo0 then q else lo0)). cbv zeta in *. destruct IH as (A & B & C). destruct (qlt_spec q lo0) as [L|L].
  - split; [lra|]. split; [intros k' q' [H|H]; [injection H as <- <-; exact A|apply (B k' q' H)]|]. right. destruct C as [->|(k' & H)]; [exists k; left; reflexivity|exists k'; right; exact H].
  - split; [lra|]. split; [intros k' q' [H|H]; [injection H as <- <-; lra|apply (B k' q' H)]|]. destruct C as [->|(k' & H)]; [auto|right; exists k'; right; exact H]. Qed.

Lemma checked_prob q : prob q -> checked q = Ok q.
Proof. intros [A B]. unfold checked. destruct (qlt_spec 1 q); [lra|]. destruct (qlt_spec q 0); [lra|]. reflexivity. Qed.

Lemma qmax_one a b : prob a -> prob b -> (qmax a b == 1)%Q <-> (a == 1)%Q \/ (b == 1)%Q.
Proof. unfold prob, qmax. intros [? ?] [? ?]. destruct (qlt_spec a b); split; intros K; try (destruct K; lra); lra. Qed.

Section Value.
Context (orig : list dinst) (p : cprogram) (HO : has_original orig p).

Local Notation all_certain := (used_certain orig p).
Local Notation all_possible := (all_seen orig).
Local Notation settled := (settled orig p).

Lemma rest_part i s k : parts_ok i s -> In k rest_keys -> pos_prob (sget s k 1).
Proof. intros [A _] K. unfold sget. destruct (dget s k) as [q|] eqn:E; [|split; lra]. apply dget_in in E. destruct (A _ _ E) as ([P1 P2] & _ & H).
  unfold rest_keys, Kprd, Kpcfg, Kpbd, Kpopu, Kpc, Kpo, Kpr in *. cbn [In] in K. destruct H as [H|[H|[(H & _)|[_ H]]]]; [intuition lia|intuition lia|intuition lia|split; [exact H|exact P2]]. Qed.

Lemma no_pupo i s : parts_ok i s -> dget s Kpupo = None.
Proof. intros [A _]. destruct (dget s Kpupo) as [q|] eqn:E; [|reflexivity]. exfalso. apply dget_in in E. destruct (A _ _ E) as (_ & I & _).
  unfold Kpupo, Kprd, Kpcfg, Kpbd, Kpopu, Kpc, Kpo, Kpr in I. cbn [In] in I. intuition lia. Qed.

Lemma remove_step_value a c s : candidate p a c -> d_ignore (c_inst c) = false -> fresh_parts orig p (c_inst c) s ->
  exists q, remove_step s (c_inst c) = Ok q /\ prob q /\
    ((q == 1)%Q <-> settled (c_inst c) /\ all_possible (c_inst c)) /\
    ((q == 0)%Q <-> ~ all_possible (c_inst c) \/ (stack_only (c_inst c) /\ ~ settled (c_inst c))).
Proof. intros Hc Ig (P & (pc & Gc & Qc) & (po & Go & Qo) & R). set (i := c_inst c) in *.
  destruct (share_prob orig p HO (same_cond i) (present orig p HO (same_cond i) a c Hc Ig (Z.eqb_refl _))) as (Sc1 & Sc2 & _ & Sc4).
  destruct (share_prob orig p HO (same_op i) (present orig p HO (same_op i) a c Hc Ig (Z.eqb_refl _))) as (So1 & So2 & _ & So4).
  assert (Pc : prob pc) by (unfold prob in *; lra). assert (Po : prob po) by (unfold prob in *; lra).
  assert (C1 : (pc == 1)%Q <-> certain orig p (same_cond i)) by (rewrite <- Sc2; split; lra).
  assert (C0 : (pc == 0)%Q <-> ~ possible orig (same_cond i)) by (rewrite <- Sc4; split; lra).
  assert (O1 : (po == 1)%Q <-> certain orig p (same_op i)) by (rewrite <- So2; split; lra).
  assert (O0 : (po == 0)%Q <-> ~ possible orig (same_op i)) by (rewrite <- So4; split; lra).
  assert (DP : forall f, possible orig f \/ ~ possible orig f) by (intros f; rewrite possible_iff; lia).
  assert (D : (forall r, In r (d_used i) -> possible orig (uses r)) \/ exists r, In r (d_used i) /\ ~ possible orig (uses r)).
  { clear - DP. induction (d_used i) as [|r l IH]; [left; intros r []|]. destruct IH as [IH|(r' & H1 & H2)]; [|right; exists r'; cbn; auto].
    destruct (DP (uses r)) as [H|H]; [left; intros r' [<-|H']; auto|right; exists r; cbn; auto]. }
  assert (AD : all_possible i \/ ~ all_possible i).
  { unfold all_seen. destruct (DP (same_cond i)); [|right; intros [X _]; contradiction]. destruct (DP (same_op i)); [|right; intros [_ [X _]]; contradiction]. destruct D as [D|(r & D1 & D2)]; [left; auto|].
    destruct (d_branch i); [left; split; [assumption|split; [assumption|discriminate]]|]. destruct (pushpop i); [left; split; [assumption|split; [assumption|discriminate]]|].
    right. intros (_ & _ & X). apply D2, X; auto. }
  set (pr := sget s Kpr 0).
  assert (RP : prob pr /\ ((pr == 1)%Q <-> d_branch i = false /\ pushpop i = false /\ all_certain i) /\
    ((exists q, dget s Kpr = Some q /\ (q == 0)%Q) <-> ~ (d_branch i = false -> pushpop i = false -> forall r, In r (d_used i) -> possible orig (uses r))) /\
    ((pr == 0)%Q -> dget s Kpr = None \/ exists q, dget s Kpr = Some q /\ (q == 0)%Q)).
  { unfold pr, sget. destruct (d_branch i || pushpop i) eqn:Eb.
    - rewrite R. split; [apply prob0|]. apply orb_true_iff in Eb. split; [split; [intros; lra|intros (A & B & _); destruct Eb; congruence]|].
      split; [|auto]. split; [intros (q & X & _); discriminate|]. intros X. exfalso. apply X. intros A B. destruct Eb; congruence.
    - destruct R as (q & -> & R1 & R2 & R3). apply orb_false_iff in Eb. destruct Eb as [Eb Ep]. split; [exact R1|]. split; [rewrite R2; unfold used_certain; clear - Eb Ep; tauto|]. split; [|eauto].
      split.
      + intros (q' & E & X). injection E as <-. apply R3 in X. destruct X as (r & H1 & H2). intros Y. apply H2, Y; assumption.
      + intros X. exists q. split; [reflexivity|]. apply R3.
        destruct D as [D|D]; [exfalso; apply X; auto|exact D]. }
  destruct RP as (Pr & R1 & R0 & RN).
  pose proof (lowest_fold s 2%Q) as L. cbv zeta in L. fold (lowest s) in L. destruct L as (_ & L1 & L2).
  assert (ND : NoDup (dkeys s)) by apply P.
  assert (Lo0 : (lowest s == 0)%Q <-> ~ all_possible i).
  { split.
    - intros E (A1 & A2 & A3). destruct L2 as [X|(k & H)]; [rewrite X in E; lra|]. destruct P as [P _]. destruct (P k _ H) as (_ & _ & Y).
      apply (dget_nodup_in s k (lowest s) ND) in H.
      destruct Y as [->|[->|[(-> & _)|[_ Y]]]].
      + rewrite Gc in H. injection H as H. apply C0; [rewrite H; exact E|exact A1].
      + rewrite Go in H. injection H as H. apply O0; [rewrite H; exact E|exact A2].
      + apply R0; [exists (lowest s); split; [exact H|exact E]|exact A3].
      + lra.
    - intros NA. assert (Z0 : exists k q, dget s k = Some q /\ (q == 0)%Q).
      { destruct (DP (same_cond i)) as [D1|D1]; [|exists Kpc, pc; split; [exact Gc|apply C0, D1]].
        destruct (DP (same_op i)) as [D2|D2]; [|exists Kpo, po; split; [exact Go|apply O0, D2]].
        destruct (proj2 R0) as (q & G & E); [intros X; apply NA; split; [exact D1|split; [exact D2|exact X]]|]. exists Kpr, q. auto. }
      destruct Z0 as (k & q & G & E). apply dget_in in G. pose proof (L1 k q G) as Lq. destruct L2 as [X|(k' & H')]; [rewrite X in Lq; lra|].
      destruct P as [P _]. destruct (P k' _ H') as ([Y _] & _). lra. }
  assert (Hi1 : (qmax (qmax pc po) pr == 1)%Q <-> settled i).
  { rewrite qmax_one by (try apply qmax_prob; assumption). rewrite qmax_one by assumption. unfold RecSpec.settled. rewrite C1, O1, R1. clear. tauto. }
  unfold remove_step. fold pr. assert (Sc : sget s Kpc 1 = pc) by (unfold sget; rewrite Gc; reflexivity). assert (So : sget s Kpo 1 = po) by (unfold sget; rewrite Go; reflexivity).
  assert (Spu : sget s Kpupo 1 = 1%Q) by (unfold sget; rewrite (no_pupo i s P); reflexivity). rewrite Sc, So, Spu, Ig. cbv zeta.
  pose proof (rest_part i s Kpcfg P ltac:(unfold rest_keys; cbn; auto)) as Pcf. pose proof (rest_part i s Kpbd P ltac:(unfold rest_keys; cbn; auto)) as Pbd.
  pose proof (rest_part i s Kprd P ltac:(unfold rest_keys; cbn; auto)) as Prd.
  destruct (qeq_spec (qmax (qmax pc po) pr) 1) as [H1|H1], (qeq_spec (lowest s) 0) as [H0|H0]; cbn [andb negb orb].
  - apply Lo0 in H0. exists 0%Q. split; [reflexivity|]. split; [apply prob0|]. split; [split; [intros X; lra|intros [_ X]; contradiction]|]. split; [auto|reflexivity].
  - apply Hi1 in H1. assert (A : all_possible i) by (destruct AD as [A|A]; [exact A|exfalso; apply H0, Lo0, A]).
    exists 1%Q. split; [reflexivity|]. split; [apply prob1|]. split; [split; [auto|reflexivity]|]. split; [intros X; lra|intros [X|[_ X]]; contradiction].
  - apply Lo0 in H0. exists 0%Q. split; [reflexivity|]. split; [apply prob0|]. split; [split; [intros X; lra|intros [_ X]; contradiction]|]. split; [auto|reflexivity].
  - assert (A : all_possible i) by (destruct AD as [A|A]; [exact A|exfalso; apply H0, Lo0, A]). pose proof A as (A1 & A2 & A3).
    assert (NS : ~ settled i) by (intros X; apply H1, Hi1, X).
    assert (Kc : pos_prob pc /\ (pc < 1)%Q).
    { destruct Pc as [X1 X2]. assert (~ (pc == 0)%Q) by (intros X; apply C0 in X; contradiction). assert (~ (pc == 1)%Q) by (intros X; apply NS; left; apply C1, X). split; [split|]; lra. }
    assert (Ko : pos_prob po). { destruct Po as [X1 X2]. assert (~ (po == 0)%Q) by (intros X; apply O0 in X; contradiction). split; lra. }
    destruct Kc as [Kc Kc1].
    assert (Fin : forall x, pos_prob x -> pos_prob (pc * po * sget s Kpcfg 1 * x) /\ (pc * po * sget s Kpcfg 1 * x < 1)%Q).
    { intros x Px. assert (Y : pos_prob (po * sget s Kpcfg 1 * x)) by (repeat apply pos_mult; assumption).
      assert (Eq : (pc * po * sget s Kpcfg 1 * x == pc * (po * sget s Kpcfg 1 * x))%Q) by ring. destruct (pos_mult _ _ Kc Y) as [Z1 Z2].
      split; [split; rewrite Eq; assumption|]. rewrite Eq. destruct Y, Kc. nra. }
    assert (Done : forall q, pos_prob q -> (q < 1)%Q -> ~ stack_only i -> exists q', checked q = Ok q' /\ prob q' /\ ((q' == 1)%Q <-> settled i /\ all_possible i) /\ ((q' == 0)%Q <-> ~ all_possible i \/ stack_only i /\ ~ settled i)).
    { intros q [Q1 Q2] Q3 NSt. exists q. split; [apply checked_prob; split; lra|]. split; [split; lra|]. split; [split; [intros X; lra|intros [X _]; contradiction]|]. split; [intros X; lra|intros [X|[X _]]; contradiction]. }
    unfold product. destruct (d_branch i) eqn:Eb.
    + destruct (Fin (sget s Kpbd 1) Pbd) as [F1 F2]. apply Done; [exact F1|exact F2|intros [X _]; congruence].
    + destruct (pushpop i) eqn:Ep; cbn [orb] in R.
      * assert (E0 : pr = 0%Q) by (unfold pr, sget; rewrite R; reflexivity). rewrite E0.
        set (q := (pc * po * sget s Kpcfg 1 * (0 * 1))%Q). assert (Eq : (q == 0)%Q) by (unfold q; ring). exists q.
        split; [apply checked_prob; split; lra|]. split; [split; lra|]. split; [split; [intros X; lra|intros [X _]; contradiction]|]. split; [intros _; right; split; [split; assumption|exact NS]|intros _; exact Eq].
      * assert (Kr : pos_prob pr). { destruct Pr as [X1 X2]. assert (~ (pr == 0)%Q). { intros X. destruct (RN X) as [Y|Y]; [destruct R as (q & Y' & _); congruence|]. apply R0 in Y. apply Y. intros _ _. apply A3; reflexivity. } split; lra. }
        destruct (Fin (pr * sget s Kprd 1)%Q) as [F1 F2]; [apply pos_mult; assumption|]. apply Done; [exact F1|exact F2|intros [_ X]; congruence]. Qed.
End Value.
