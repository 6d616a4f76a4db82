(** C170: what a basic block is. *)
From Verif Require Import ListLemmas CfgEdgeProps.
From Coq Require Import ZifyBool ZifyNat Permutation.

(** ** Specification *)
(** A branch closes the block unless it is the first instruction of its condition: no
    instruction before, another condition before, or a block closed right before. *)
Inductive closes (program : list cinst) : nat -> Prop :=
| closes_branch w x : next_defined program w x -> same_condition program x w -> branches program x -> stays_open program w -> closes program x
with stays_open (program : list cinst) : nat -> Prop :=
| open_plain x : ~ branches program x -> stays_open program x
| open_first x : (forall w, ~ next_defined program w x) -> stays_open program x
| open_condition w x : next_defined program w x -> ~ same_condition program x w -> stays_open program x
| open_after w x : next_defined program w x -> closes program w -> stays_open program x.

(** ** Where blocks begin *)
(** From [st] to [st'] the only new instruction is [k], and the only new first
    instructions of a block are [k] and [t]. *)
Definition evolves (k : nat) (t : option nat) (st st' : cfg) : Prop :=
  (forall b y, hd_error (instructions st' b) = Some y -> (exists b0, hd_error (instructions st b0) = Some y) \/ y = k \/ (t = Some y /\ exists b0, In y (instructions st b0))) /\
  (forall b i, In i (instructions st' b) -> i = k \/ exists b0, In i (instructions st b0)) /\
  (forall x y, adjacent st' x y -> adjacent st x y).
Lemma evolves_trans k t a b c : evolves k t a b -> evolves k t b c -> evolves k t a c.
Proof. intros (A1 & A2 & A3) (B1 & B2 & B3). split; [|split; [|intros x y H; apply A3, B3, H]].
  - intros x y H. destruct (B1 x y H) as [(b0 & H0)|[->|(-> & b0 & H0)]]; [exact (A1 b0 y H0)|auto|]. destruct (A2 b0 y H0) as [->|H1]; auto.
  - intros x i H. destruct (B2 x i H) as [->|(b0 & H0)]; [auto|exact (A2 b0 i H0)]. Qed.
Lemma evolves_same k t st st' : c_blocks st' = c_blocks st -> evolves k t st st'.
Proof. intros E. unfold evolves, instructions. rewrite E. split; [eauto|]. split; [eauto|]. intros x y. unfold adjacent, instructions. rewrite E. auto. Qed.
Lemma evolves_edge k t st u v st' : edge_add st u v = Ok st' -> evolves k t st st'.
Proof. unfold edge_add. destruct (add_edge _ _ _); [|discriminate]. cbn [bind]. intros E. injection E as <-. apply evolves_same. reflexivity. Qed.
Lemma evolves_once k t st u v st' : edge_add_once st u v = Ok st' -> evolves k t st st'.
Proof. unfold edge_add_once. destruct (has_edge _ _ _); [intros E; injection E as <-; apply evolves_same; reflexivity|apply evolves_edge]. Qed.
Lemma once_blocks st u v st' : edge_add_once st u v = Ok st' -> c_blocks st' = c_blocks st.
Proof. unfold edge_add_once. destruct (has_edge _ _ _); [congruence|]. unfold edge_add. destruct (add_edge _ _ _); [|discriminate]. cbn [bind]. intros E. injection E as <-. reflexivity. Qed.
Lemma evolves_multiple k t dest : forall ss st st', add_multiple_edges st dest ss = Ok st' -> evolves k t st st'.
Proof. unfold add_multiple_edges. induction ss as [|s ss IH]; intros st st'; cbn [foldM]; [intros E; injection E as <-; apply evolves_same; reflexivity|].
  destruct (edge_add_once st s dest) as [st1|] eqn:E1; [|discriminate]. cbn [bind]. intros E. eapply evolves_trans; [eapply evolves_once, E1|apply IH, E]. Qed.
Lemma new_node_instructions st K l st' n : new_node st K l = Ok (st', n) -> forall x, instructions st' x = if x =? n then l else instructions st x.
Proof. intros E. assert (X : exists g, st' = Cfg g (dset (c_blocks st) (c_last st + 1) (K, l)) (c_last st + 1) (c_pending st) /\ n = c_last st + 1).
  { unfold new_node in E. destruct K, l; try discriminate; destruct (add_node _ _) as [g|]; try discriminate; cbn [bind] in E; injection E as <- <-; exists g; split; reflexivity. }
  destruct X as (g & -> & ->). intros x. unfold instructions. cbn [c_blocks]. rewrite dget_dset. destruct (x =? c_last st + 1); reflexivity. Qed.
Lemma evolves_new k t st K l st' n : new_node st K l = Ok (st', n) -> l = [] \/ l = [k] -> evolves k t st st'.
Proof. intros E L. pose proof (new_node_instructions _ _ _ _ _ E) as I. split; [|split; [|intros x y (b & l1 & l2 & H); rewrite I in H; destruct (b =? n); [exfalso; destruct L as [-> | ->]; destruct l1 as [|? [|? l1]]; discriminate|exists b, l1, l2; exact H]]]; intros x y H; rewrite I in H; destruct (x =? n); eauto; destruct L as [-> | ->]; try discriminate; cbn in H; [right; left; congruence|destruct H|destruct H as [<-|[]]; auto]. Qed.
Lemma set_instructions_get st b l x : instructions (set_instructions st b l) x = instructions st x \/ instructions (set_instructions st b l) x = l.
Proof. unfold set_instructions. destruct (dget (c_blocks st) b) as [[K l0]|] eqn:G; [|auto]. unfold instructions. cbn [c_blocks]. rewrite dget_dset. destruct (x =? b); auto. Qed.
Lemma nindex_nth i l : forall j, nindex i l = Ok j -> nth_error l j = Some i.
Proof. induction l as [|y l IH]; intros j; cbn [nindex]; [discriminate|]. destruct (Nat.eqb_spec y i) as [->|]; [intros E; injection E as <-; reflexivity|]. destruct (nindex i l) as [j'|]; [|discriminate]. cbn [rmap]. intros E. injection E as <-. apply IH. reflexivity. Qed.
Lemma evolves_split k st s b t st' : split_node st s b t = Ok st' -> evolves k (Some t) st st'.
Proof. unfold split_node. destruct (nindex t (instructions st s)) as [j|] eqn:Ej; [|discriminate]. cbn [bind]. apply nindex_nth in Ej. destruct j as [|j].
  - cbn [bind]. apply evolves_edge.
  - destruct (new_node st KBlock (firstn (S j) (instructions st s))) as [[st1 up]|] eqn:E1; [|discriminate]. cbn [bind]. set (st2 := set_instructions st1 s (skipn (S j) (instructions st s))).
    destruct (incidents (c_graph st2) s) as [ins|]; [|discriminate]. cbn [bind]. pose proof (new_node_instructions _ _ _ _ _ E1) as I1.
    assert (X : evolves k (Some t) st st2).
    { assert (Get : forall x, instructions st2 x = instructions st x \/ instructions st2 x = skipn (S j) (instructions st s) \/ instructions st2 x = firstn (S j) (instructions st s)).
      { intros x. destruct (set_instructions_get st1 s (skipn (S j) (instructions st s)) x) as [G|G]; fold st2 in G; [|auto]. rewrite G, I1. destruct (x =? up); auto. }
      assert (It : In t (instructions st s)) by (eapply nth_error_In, Ej).
      split; [|split].
      3: { intros x y (c & l1 & l2 & H). destruct (Get c) as [G|[G|G]]; rewrite G in H; [exists c, l1, l2; exact H| |]; exists s.
           - exists (firstn (S j) (instructions st s) ++ l1), l2. rewrite <- app_assoc, <- H, firstn_skipn. reflexivity.
           - exists l1, (l2 ++ skipn (S j) (instructions st s)). rewrite <- (firstn_skipn (S j) (instructions st s)) at 1. rewrite H, <- app_assoc. reflexivity. }
      all: intros x y H; destruct (Get x) as [G|[G|G]]; rewrite G in H; eauto.
      - right. right. rewrite (nth_skipn_hd _ _ _ Ej) in H. injection H as <-. eauto.
      - left. exists s. destruct (instructions st s); [discriminate|exact H].
      - right. exists s. rewrite <- (firstn_skipn (S j)). apply in_app_iff. auto.
      - right. exists s. rewrite <- (firstn_skipn (S j)). apply in_app_iff. auto. }
    clearbody st2. clear E1 I1. intros E. eapply evolves_trans; [exact X|]. clear X.
    assert (L : forall ins st2 st3, foldM (fun st n => let* g := del_edge (c_graph st) n s in edge_add (with_graph st g) n up) ins st2 = Ok st3 -> evolves k (Some t) st2 st3).
    { clear. induction ins as [|n ins IH]; intros st2 st3; cbn [foldM]; [intros E; injection E as <-; apply evolves_same; reflexivity|].
      destruct (del_edge _ _ _) as [g|]; [|discriminate]. cbn [bind]. destruct (edge_add (with_graph st2 g) n up) as [st4|] eqn:E4; [|discriminate]. cbn [bind]. intros E. eapply evolves_trans; [|apply IH, E]. eapply evolves_trans; [|eapply evolves_edge, E4]. apply evolves_same. reflexivity. }
    destruct (foldM _ ins st2) as [st3|] eqn:E3; [|discriminate]. cbn [bind] in E. destruct (edge_add st3 up s) as [st4|] eqn:E4; [|discriminate]. cbn [bind] in E.
    eapply evolves_trans; [eapply L, E3|]. eapply evolves_trans; [eapply evolves_edge, E4|eapply evolves_edge, E]. Qed.
Lemma evolves_conditional p k t st c cb lc st' r : branch_conditional p st k c cb lc = Ok (st', r) -> evolves k t st st'.
Proof. unfold branch_conditional. destruct (new_node st KBlock [k]) as [[st1 b]|] eqn:E1; [|discriminate]. cbn [bind]. pose proof (evolves_new k t _ _ _ _ _ E1 ltac:(auto)) as X1. clear E1.
  assert (Once : forall st lc n st', match lc with Some lc => edge_add_once st lc n | None => Ok st end = Ok st' -> evolves k t st st') by (intros s0 [z|] n s1 E; [eapply evolves_once, E|injection E as <-; apply evolves_same; reflexivity]).
  assert (Unless : forall (q : bool) st u v st', (if q then Ok st else edge_add st u v) = Ok st' -> evolves k t st st') by (intros [] s0 u v s1 E; [injection E as <-; apply evolves_same; reflexivity|eapply evolves_edge, E]).
  destruct (ci_cond c =? cond_always).
  - destruct (if last_is_branch p st1 cb then Ok st1 else edge_add st1 cb b) as [st2|] eqn:E2; [|discriminate]. cbn [bind]. destruct (match lc with Some l => edge_add_once st2 l b | None => Ok st2 end) as [st3|] eqn:E3; [|discriminate]. cbn [bind]. intros E.
    assert (st3 = st') as <- by congruence. eapply evolves_trans; [exact X1|]. eapply evolves_trans; [eapply Unless, E2|eapply Once, E3].
  - destruct (new_node st1 KCond []) as [[st2 n]|] eqn:E2; [|discriminate]. cbn [bind]. pose proof (evolves_new k t _ _ _ _ _ E2 ltac:(auto)) as X2.
    destruct (edge_add st2 n b) as [st3|] eqn:E3; [|discriminate]. cbn [bind]. destruct (if last_is_branch p st3 cb then Ok st3 else edge_add st3 cb n) as [st4|] eqn:E4; [|discriminate]. cbn [bind].
    destruct (match lc with Some l => edge_add_once st4 l n | None => Ok st4 end) as [st5|] eqn:E5; [|discriminate]. cbn [bind].
    destruct (match dget (c_pending st5) (Z.of_nat k) with Some ss => add_multiple_edges st5 n ss | None => Ok st5 end) as [st6|] eqn:E6; [|discriminate]. cbn [bind]. intros E. assert (st6 = st') as <- by congruence.
    eapply evolves_trans; [exact X1|]. eapply evolves_trans; [exact X2|]. eapply evolves_trans; [eapply evolves_edge, E3|]. eapply evolves_trans; [eapply Unless, E4|]. eapply evolves_trans; [eapply Once, E5|].
    destruct (dget (c_pending st5) (Z.of_nat k)); [eapply evolves_multiple, E6|injection E6 as <-; apply evolves_same; reflexivity]. Qed.
Lemma evolves_branch p k st cb br c st' r : branch_instruction p st cb br k c 2 = Ok (st', r) -> evolves k (branch_to p c) st st'.
Proof. unfold branch_instruction.
  assert (X : forall st1 b, match br with Some b => Ok (st, b) | None => new_node st KBlock [k] end = Ok (st1, b) -> evolves k (branch_to p c) st st1).
  { intros st1 b E. destruct br; [injection E as <- <-; apply evolves_same; reflexivity|eapply evolves_new; [exact E|auto]]. }
  destruct (match br with Some b => Ok (st, b) | None => new_node st KBlock [k] end) as [[st1 b]|] eqn:E1; [|discriminate]. cbn [bind]. specialize (X _ _ eq_refl).
  destruct (match cb with Some cb => edge_add st1 cb b | None => Ok st1 end) as [st2|] eqn:E2; [|discriminate]. cbn [bind]. assert (X2 : evolves k (branch_to p c) st st2). { eapply evolves_trans; [exact X|]. destruct cb; [eapply evolves_edge, E2|injection E2 as <-; apply evolves_same; reflexivity]. }
  clear X E1 E2. destruct (branch_to p c) as [t|].
  - destruct (node_with_inst st2 t) as [s|].
    + destruct (split_node st2 s b t) as [st3|] eqn:E3; [|discriminate]. cbn [bind]. intros E. assert (st3 = st') as <- by congruence. eapply evolves_trans; [exact X2|eapply evolves_split, E3].
    + cbn [bind]. intros E. assert (add_pending st2 k b = st') as <- by congruence. eapply evolves_trans; [exact X2|apply evolves_same; reflexivity].
  - destruct (new_node st2 KUnknown []) as [[st3 u]|] eqn:E3; [|discriminate]. cbn [bind]. destruct (edge_add st3 b u) as [st4|] eqn:E4; [|discriminate]. cbn [bind]. destruct (edge_add st4 u 2) as [st5|] eqn:E5; [|discriminate]. cbn [bind]. intros E. assert (st5 = st') as <- by congruence.
    eapply evolves_trans; [exact X2|]. eapply evolves_trans; [eapply evolves_new; [exact E3|auto]|]. eapply evolves_trans; [eapply evolves_edge, E4|eapply evolves_edge, E5]. Qed.

Lemma nextd_iff p x y : nextd p x y <-> next_defined p x y.
Proof. split; [apply nextd_spec|]. intros (A & B & C & D). apply is_defined_iff in A, B. split; [exact A|]. split; [exact B|]. split; [exact C|]. intros j J. destruct (is_defined p j) eqn:E; [|reflexivity]. apply is_defined_iff in E. destruct (D j J E). Qed.
Lemma next_unique program w w' x : next_defined program w x -> next_defined program w' x -> w = w'.
Proof. intros (A & _ & B & C) (A' & _ & B' & C'). destruct (Nat.lt_trichotomy w w') as [L|[->|L]]; [destruct (C w' ltac:(lia) A')|reflexivity|destruct (C' w ltac:(lia) A)]. Qed.
Lemma closes_not_open program : forall n x, (x < n)%nat -> closes program x -> stays_open program x -> False.
Proof. induction n as [|n IH]; intros x L C O; [lia|]. destruct C as [w x N Sc B Ow].
  destruct O as [x B'|x F|w' x N' Sc'|w' x N' C']; [contradiction|exact (F w N)| |]; pose proof (next_unique _ _ _ _ N N') as <-; [contradiction|]. apply (IH w); [destruct N as (_ & _ & X & _); lia|assumption|assumption]. Qed.
Lemma defined_lastd p a x : forall k, defined p k = a ++ [x] -> lastd p k x.
Proof. induction k as [|k IH]; intros E; [destruct a; discriminate|]. rewrite defined_S in E. destruct (is_defined p k) eqn:D.
  - apply app_inj_tail in E as [_ <-]. apply last_self, D.
  - rewrite app_nil_r in E. apply last_S; [apply IH, E|exact D]. Qed.
Lemma last_or_first p k : (exists x, lastd p k x) \/ firstd p k.
Proof. induction k as [|k IH]; [right; intros j; lia|]. destruct (is_defined p k) eqn:D; [left; exists k; apply last_self, D|]. destruct IH as [(x & X)|F]; [left; exists x; apply last_S; assumption|right].
  intros j J. destruct (Nat.eq_dec j k) as [->|]; [exact D|apply F; lia]. Qed.
Lemma last_unique_at p k x y : lastd p k x -> lastd p k y -> x = y.
Proof. intros (A & B & C) (A' & B' & C'). destruct (Nat.lt_trichotomy x y) as [L|[->|L]]; [rewrite (C y) in A' by lia; discriminate|reflexivity|rewrite (C' x) in A by lia; discriminate]. Qed.
Lemma same_cond_at p x y : is_defined p x = true -> is_defined p y = true -> cond_at p y = cond_at p x -> same_condition p y x.
Proof. intros Dx Dy E. unfold is_defined, cond_at in *. destruct (nth_error p x) as [cx|] eqn:Ex; [|discriminate]. destruct (nth_error p y) as [cy|] eqn:Ey; [|discriminate]. exists (ci_cond cx). split; [exists cy|exists cx]; auto. Qed.
Lemma same_cond_eq p x y : same_condition p y x -> cond_at p y = cond_at p x.
Proof. intros (c & A & B). rewrite (cond_at_is _ _ _ A), (cond_at_is _ _ _ B). reflexivity. Qed.

Definition head_reason (p : list cinst) (k y : nat) : Prop :=
  is_branch p y = true \/ (forall x, nextd p x y -> closes p x \/ cond_at p x <> cond_at p y) \/
  exists j, (y < j < k)%nat /\ is_defined p j = true /\ is_branch p j = true /\ target p j = Some y.
Definition heads (p : list cinst) (k : nat) (st : cfg) : Prop :=
  (forall b i, In i (instructions st b) -> (i < k)%nat) /\ (forall b y, hd_error (instructions st b) = Some y -> head_reason p k y) /\
  forall x y, adjacent st x y -> stays_open p x.
(** The condition remembered: that of the last instruction if its block is open. *)
Definition open_last (p : list cinst) (k : nat) (lf : option Z) : Prop :=
  match lf with
  | Some f => exists x, lastd p k x /\ f = cond_at p x /\ stays_open p x
  | None => forall x, lastd p k x -> closes p x
  end.
Lemma reason_S p k y : head_reason p k y -> head_reason p (S k) y.
Proof. intros [H|[H|(j & J & H)]]; [left; exact H|right; left; exact H|right; right; exists j; split; [lia|exact H]]. Qed.
Lemma heads_S p k st : heads p k st -> heads p (S k) st.
Proof. intros (A & B & C). split; [intros b i H; specialize (A b i H); lia|]. split; [intros b y H; apply reason_S, (B b y H)|exact C]. Qed.
Lemma open_S p k lf : open_last p k lf -> is_defined p k = false -> open_last p (S k) lf.
Proof. intros H D. destruct lf as [f|]; cbn [open_last] in *; [destruct H as (x & X & Y); exists x; split; [apply last_S; assumption|exact Y]|].
  intros x (A & B & C). apply H. split; [exact A|]. assert (x <> k) by (intros ->; congruence). split; [lia|]. intros j J. apply C. lia. Qed.
Lemma heads_evolve p k t st st' : heads p k st -> evolves k t st st' -> (forall y, t = Some y -> is_defined p k = true /\ is_branch p k = true /\ target p k = Some y) ->
  head_reason p (S k) k -> heads p (S k) st'.
Proof. intros (A & B & C) (E1 & E2 & E3) T R. split; [|split; [|intros x y H; exact (C x y (E3 x y H))]].
  - intros b i H. destruct (E2 b i H) as [->|(b0 & H0)]; [lia|]. specialize (A b0 i H0). lia.
  - intros b y H. destruct (E1 b y H) as [(b0 & H0)|[->|(Et & b0 & H0)]]; [apply reason_S, (B b0 y H0)|exact R|]. specialize (A b0 y H0). right. right. exists k. split; [lia|]. apply T, Et. Qed.
Lemma step8 p k s c s' : Inv5 p k s -> heads p k (fst s) -> open_last p k (snd (fst (snd s))) -> nth_error p k = Some c -> build_step p 2 s (k, c) = Ok s' -> heads p (S k) (fst s') /\ open_last p (S k) (snd (fst (snd s'))).
Proof. destruct s as [st [[cb lf] lc]]. cbn [fst snd]. intros (HI & _) H O Ec E. pose proof HI as (C & B & Hl & Hf). unfold build_step in E.
  destruct (ci_undefined c) eqn:U; [injection E as <-; split; [apply heads_S, H|]; cbn [fst snd]; apply open_S; [exact O|unfold is_defined; now rewrite Ec, U]|].
  assert (D : is_defined p k = true) by (unfold is_defined; now rewrite Ec, U). assert (Ck : cond_at p k = ci_cond c) by (unfold cond_at; now rewrite Ec).
  assert (Bk : is_branch p k = ci_branch c) by (unfold is_branch; now rewrite Ec). assert (Tk : target p k = branch_to p c) by (unfold target; now rewrite Ec).
  pose proof (last_self p k D) as Lk.
  assert (Plain : ci_branch c = false -> stays_open p k) by (intros X; apply open_plain; intros (c' & Y & Z0); congruence).
  destruct (match lf with Some f => ci_cond c =? f | None => false end) eqn:Cond.
  - destruct lf as [f|]; [|discriminate]. cbn [open_last] in O. destruct O as (w & Lw & Fw & Ow). pose proof (last_next _ _ _ Lw D) as Nw. assert (Cw : cond_at p k = cond_at p w) by lia. destruct (ci_branch c) eqn:Br.
    + destruct (branch_instruction p st (Some cb) None k c 2) as [[st1 cb']|] eqn:E1; [|discriminate]. cbn [bind] in E. destruct cb' as [cb'|]; [|discriminate]. injection E as <-. cbn [fst snd]. split.
      * eapply heads_evolve; [exact H|eapply evolves_branch, E1| |left; exact Bk]. intros y Y. rewrite Tk. auto.
      * cbn [open_last]. intros x X. rewrite (last_unique_at _ _ _ _ X Lk). apply (closes_branch p w k); [apply nextd_iff, Nw|apply same_cond_at; [apply Lw|exact D|exact Cw]|exists c; auto|exact Ow].
    + rewrite (co_pend _ _ _ _ C k) in E by lia. injection E as <-. cbn [fst snd]. split; [|exists k; split; [exact Lk|]; split; [lia|auto]].
      destruct (Hf ltac:(discriminate)) as [Kb (a & Ea)]. apply (proj1 (co_kind _ _ _ _ C cb)) in Kb. destruct H as (A & R & Q). split; [|split].
      * intros b i I. destruct (set_instructions_get st cb (instructions st cb ++ [k]) b) as [G|G]; rewrite G in I; [specialize (A b i I); lia|]. apply in_app_iff in I as [I|[<-|[]]]; [specialize (A cb i I)|]; lia.
      * intros b y I. apply reason_S. destruct (set_instructions_get st cb (instructions st cb ++ [k]) b) as [G|G]; rewrite G in I; [exact (R b y I)|]. apply (R cb). destruct (instructions st cb); [contradiction|exact I].
      * intros x y (b & l1 & l2 & I). destruct (set_instructions_get st cb (instructions st cb ++ [k]) b) as [G|G]; rewrite G in I; [apply (Q x y); exists b, l1, l2; exact I|].
        destruct (exists_last (l := y :: l2)) as (l3 & z & Z0); [discriminate|]. replace (l1 ++ x :: y :: l2) with ((l1 ++ x :: l3) ++ [z]) in I by (rewrite <- app_assoc; cbn [app]; rewrite Z0; reflexivity). apply app_inj_tail in I as [I _].
        destruct l3 as [|y' l3]; [|injection Z0 as <- _; apply (Q x y); exists cb, l1, l3; exact I].
        assert (Lx : lastd p k x) by (apply defined_lastd with (a := a ++ l1); rewrite Ea, I, app_assoc; reflexivity). rewrite (last_unique_at _ _ _ _ Lx Lw). exact Ow.
  - assert (Rk : head_reason p (S k) k).
    { right. left. intros x X. assert (Lx : lastd p k x) by (destruct X as (X1 & _ & X2 & X3); split; [exact X1|]; split; [exact X2|exact X3]). destruct lf as [f|]; cbn [open_last] in O; [right|left; exact (O x Lx)].
      destruct O as (w & Lw & Fw & _). rewrite (last_unique_at _ _ _ _ Lx Lw), <- Fw, Ck. lia. }
    assert (Ok' : stays_open p k).
    { destruct (ci_branch c) eqn:Br; [|auto]. destruct (last_or_first p k) as [(w & Lw)|F].
      - pose proof (last_next _ _ _ Lw D) as Nw. apply nextd_iff in Nw. destruct lf as [f|]; cbn [open_last] in O; [|apply (open_after p w k Nw), O, Lw]. destruct O as (w' & Lw' & Fw & _). rewrite (last_unique_at _ _ _ _ Lw' Lw) in Fw.
        apply (open_condition p w k Nw). intros X. apply same_cond_eq in X. lia.
      - apply open_first. intros w (X1 & _ & X2 & _). apply is_defined_iff in X1. rewrite (F w X2) in X1. discriminate. }
    destruct (branch_conditional p st k c cb lc) as [[st1 [b lc']]|] eqn:E1; [|discriminate]. cbn [bind] in E. destruct (ci_branch c) eqn:Br.
    + destruct (branch_instruction p st1 None (Some b) k c 2) as [[st2 r]|] eqn:E2; [|discriminate]. cbn [bind] in E. injection E as <-. cbn [fst snd]. split; [|exists k; split; [exact Lk|]; split; [congruence|exact Ok']].
      eapply heads_evolve; [exact H|eapply evolves_trans; [eapply evolves_conditional, E1|eapply evolves_branch, E2]| |exact Rk]. intros y Y. rewrite Tk. auto.
    + cbn [bind] in E. injection E as <-. cbn [fst snd]. split; [|exists k; split; [exact Lk|]; split; [congruence|exact Ok']]. eapply (heads_evolve p k None); [exact H|eapply evolves_conditional, E1|discriminate|exact Rk]. Qed.
Lemma loop8 p : forall rest k s s', p = firstn k p ++ rest -> (k + length rest = length p)%nat -> Inv5 p k s -> heads p k (fst s) -> open_last p k (snd (fst (snd s))) -> foldM (build_step p 2) (combine (seq k (length rest)) rest) s = Ok s' -> heads p (length p) (fst s').
Proof. induction rest as [|c rest IH]; intros k s s' E L H Hh Ho.
  - cbn [length seq combine foldM] in *. intros X. injection X as <-. assert (k = length p) by lia. subst. exact Hh.
  - cbn [length] in *. cbn [seq combine foldM].
    assert (Lk : length (firstn k p) = k) by (rewrite firstn_length; lia).
    assert (Ec : nth_error p k = Some c) by (rewrite E, nth_error_app2, Lk, Nat.sub_diag by lia; auto).
    destruct (build_step p 2 s (k, c)) as [s1|] eqn:E1; [|discriminate]. cbn [bind]. destruct (step8 _ _ _ _ _ H Hh Ho Ec E1). apply (IH (S k)); [|lia|eapply step5; eassumption|assumption|assumption].
    rewrite E at 1. assert (X : firstn (S k) p = firstn k p ++ [c]).
    { rewrite E at 1. rewrite firstn_app, Lk. rewrite firstn_all2 by lia. replace (S k - k)%nat with 1%nat by lia. reflexivity. }
    rewrite X, <- app_assoc. reflexivity. Qed.
Lemma build8 p st : p <> [] -> build p = Ok st -> heads p (length p) st.
Proof.
  intros Np. destruct p as [|c0 p0]; [contradiction|]. set (p := c0 :: p0) in *. unfold build. fold p.
  destruct (new_node_ok _ KRoot [] good_start) as (st1 & E1 & G1 & L1 & P1 & N1 & Ed1 & I1 & K1); [discriminate|cbn; lia|]. cbn [c_last] in *.
  rewrite E1. cbn [bind]. destruct (new_node_ok st1 KEnd [] G1) as (st2 & E2 & G2 & L2 & P2 & N2 & Ed2 & I2 & K2); [discriminate|lia|]. rewrite E2. cbn [bind].
  rewrite L1 in *. change (0 + 1) with 1 in *. change (1 + 1) with 2 in *.
  assert (I0 : forall x, instructions st2 x = []) by (intros x; rewrite I2, I1; destruct (x =? 2), (x =? 1); reflexivity).
  assert (H0 : Inv5 p 0 (st2, (1, None, None))).
  { split.
    - split; [|split; [rewrite N2, N1; cbn; auto|split; [discriminate|congruence]]]. apply Core; [auto|lia|..].
      + unfold insts. fold (nodes st2). assert (flat_map (instructions st2) (nodes st2) = []) as ->; [|constructor]. clear -I0. induction (nodes st2) as [|x l IH]; [auto|]. cbn [flat_map]. rewrite I0. exact IH.
      + intros x. rewrite I0. apply segment_nil.
      + intros j _. rewrite P2, P1. reflexivity.
      + intros x. rewrite I0, K2, K1. split; [|congruence]. destruct (x =? 2); [discriminate|]. destruct (x =? 1); [discriminate|]. cbn. discriminate.
      + intros x j. rewrite I0. intros [].
      + intros j; lia.
    - assert (Nil : forall a (x : nat) l, defined p 0 <> a ++ x :: l) by (intros a0 x0 l0; destruct a0; discriminate).
      split; [intros a x X; destruct (Nil _ _ _ X)|]. split; [discriminate|]. split; [intros a x y b X; destruct (Nil _ _ _ X)|]. split; [intros a w u ws X; destruct (Nil _ _ _ X)|].
      split; [intros a w u ws ws0 v y b X; destruct (Nil _ _ _ X)|]. split; [intros a w x y b X; destruct (Nil _ _ _ X)|]. intros a w x X; destruct (Nil _ _ _ X). }
  destruct (foldM (build_step p 2) (combine (seq 0 (length p)) p) (st2, (1, None, None))) as [s|] eqn:E3; [|discriminate]. cbn [bind].
  assert (Hh : heads p 0 st2) by (split; [|split]; [intros b i X; rewrite I0 in X; destruct X|intros b i X; rewrite I0 in X; discriminate|intros x y (b & l1 & l2 & X); rewrite I0 in X; destruct l1; discriminate]).
  assert (Ho : open_last p 0 None) by (intros x (_ & X & _); lia).
  pose proof (loop8 p p 0 _ _ eq_refl eq_refl H0 Hh Ho E3) as H8. destruct s as [st3 [[cb lf] lc]]. cbn [fst] in H8.
  intros E4. apply once_blocks in E4. unfold heads, adjacent, instructions in *. rewrite E4. exact H8. Qed.

(** ** C170 *)
(** In a list without repetitions an element with a predecessor is not the first. *)
Lemma not_first (l1 l2 l : list nat) x y : NoDup (y :: l) -> l1 ++ x :: y :: l2 = y :: l -> False.
Proof. intros N E. inversion N as [|? ? Ny _]; subst. destruct l1 as [|z l1]; injection E as E1 E2; apply Ny; rewrite <- E2; [left|apply in_app_iff; right; right; left]; reflexivity. Qed.

(** Where a branch leads to need not be the beginning of a block: a jump ahead does not
    split. *)
Theorem C170_blocks_refuted : exists program st i t, build program = Ok st /\ jumps_to program i t /\ defined_at program t /\ ~ exists b, starts_with st b t.
Proof.
  set (p := [jump 14 0 8; plain 4; plain 8]). exists p, (match build p with Ok s => s | Err _ => Cfg g_empty [] 0 [] end), 0%nat, 2%nat.
  split; [vm_compute; reflexivity|]. split; [eexists _, _; do 5 (split; [reflexivity|]); intros [|[|t]] d L E; [injection E as <-; discriminate|injection E as <-; discriminate|lia]|].
  split; [eexists; split; reflexivity|]. intros (b & B & l & E). vm_compute in B. destruct B as [<-|[<-|[<-|[]]]]; vm_compute in E; discriminate. Qed.
Print Assumptions C170_blocks_refuted.

(** Two consecutive instructions are in one block exactly if the first leaves its block
    open, both have one condition, the second does not branch and no branch behind it
    leads to it. *)
Theorem C170_exactly : forall program st x y, build program = Ok st -> next_defined program x y ->
  (next_in_block st x y <-> stays_open program x /\ same_condition program y x /\ ~ branches program y /\ forall j, (y < j)%nat -> ~ jumps_to program j y).
Proof.
  intros program st x y E N. assert (Np : program <> []) by (intros ->; destruct N as ((c & X & _) & _); destruct x; discriminate X).
  destruct (C62_partition program) as (st' & E' & U & _ & Rn). assert (st' = st) as -> by congruence. clear E'. pose proof N as (Dx & Dy & Lxy & _).
  destruct (build6 program st Np E) as (own & G & _ & (_ & A) & _). destruct (build8 program st Np E) as (_ & Hh & Ha). split.
  - intros (b & l1 & l2 & B & I). split; [apply (Ha x y); exists b, l1, l2; exact I|]. destruct (A x y ltac:(exists b, l1, l2; exact I)) as [_ Cxy].
    assert (Iy : In y (instructions st b)) by (rewrite I; apply in_app_iff; right; right; left; reflexivity).
    destruct (Rn b) as [Nd _]. apply is_defined_iff in Dx, Dy. split; [apply same_cond_at; assumption|]. split.
    { intros (c & Ec & Bc). destruct (instructions st b) as [|h q] eqn:Q; [destruct Iy|]. destruct Iy as [->|Iy]; [exact (not_first _ _ _ _ _ Nd (eq_sym I))|]. rewrite (C80_branch_first_partial program st b h q y c E Q Iy Ec) in Bc. discriminate. }
    intros j L J. apply is_defined_iff in Dy. destruct (C63_back_path_partial program st j y E J Dy ltac:(lia)) as (_ & s & _ & (S & l & Q) & _).
    destruct (U y Dy) as (b0 & _ & Un). assert (b = s) as ->. { transitivity b0; [symmetry|]; apply Un; split; auto. rewrite Q. left. reflexivity. }
    rewrite Q in Nd. rewrite I in Q. exact (not_first _ _ _ _ _ Nd Q).
  - intros (Ox & Sc & By & Nj). destruct (U y Dy) as (b & (B & I) & _). apply in_split in I as (l1 & l2 & I). destruct (rev l1) as [|z r] eqn:R.
    + exfalso. assert (l1 = []) as -> by (rewrite <- (rev_involutive l1), R; reflexivity). destruct (Hh b y ltac:(rewrite I; reflexivity)) as [H|[H|(j & (L1 & L2) & Dj & Bj & Tj)]].
      * rewrite (no_branch _ _ By) in H. discriminate.
      * apply nextd_iff in N. destruct (H x N) as [H'|H']; [exact (closes_not_open program (S x) x ltac:(lia) H' Ox)|]. apply H'. symmetry. apply same_cond_eq, Sc.
      * exact (Nj j L1 (target_some _ _ _ Dj Bj Tj)).
    + assert (l1 = rev r ++ [z]) as -> by (rewrite <- (rev_involutive l1), R; reflexivity). rewrite <- app_assoc in I. cbn [app] in I.
      destruct (A z y ltac:(exists b, (rev r), l2; exact I)) as [Nz _]. apply nextd_iff in Nz. rewrite (next_unique _ _ _ _ N Nz). exists b, (rev r), l2. split; assumption. Qed.
Print Assumptions C170_exactly.
(** If the first does not branch, it leaves its block open. *)
Theorem C170_blocks_partial : forall program st x y, build program = Ok st -> next_defined program x y -> ~ branches program x ->
  (next_in_block st x y <-> same_condition program y x /\ ~ branches program y /\ forall j, (y < j)%nat -> ~ jumps_to program j y).
Proof. intros program st x y E N B. rewrite (C170_exactly program st x y E N). split; [tauto|]. intros H. split; [apply open_plain, B|exact H]. Qed.
Print Assumptions C170_blocks_partial.

(** All instructions of a block have one condition. *)
Theorem C170_one_condition : forall program st b i j, build program = Ok st -> holds st b i -> holds st b j -> same_condition program i j.
Proof.
  intros program st b i j E (B & I) (_ & J). assert (Np : program <> []) by (intros ->; injection E as <-; destruct B).
  destruct (C62_partition program) as (st' & E' & _ & Hd & _). assert (st' = st) as -> by congruence. clear E'.
  destruct (build6 program st Np E) as (own & G & _ & (_ & A) & _).
  assert (Adj : forall l1 u v l2, instructions st b = l1 ++ u :: v :: l2 -> cond_at program v = cond_at program u) by (intros l1 u v l2 Q; apply (A u v); exists b, l1, l2; exact Q).
  assert (Df : forall u, In u (instructions st b) -> is_defined program u = true) by (intros u X; apply is_defined_iff, (Hd b); split; auto).
  apply same_cond_at; [apply Df, J|apply Df, I|]. clear -I J Adj. destruct (instructions st b) as [|h q]; [destruct I|].
  assert (K : forall u, In u (h :: q) -> cond_at program u = cond_at program h).
  { clear I J i j. revert h Adj. induction q as [|v q IH]; intros h Adj u; [intros [<-|[]]; reflexivity|]. intros [<-|X]; [reflexivity|]. rewrite (IH v) by (try exact X; intros l1 a c l2 Q; apply (Adj (h :: l1) a c l2); rewrite Q; reflexivity). apply (Adj [] h v q). reflexivity. }
  rewrite (K i I), (K j J). reflexivity. Qed.
Print Assumptions C170_one_condition.
(** Two neighbours that stay together, two that a branch behind them separates and two
    with different conditions. *)
Example C170_example : exists st, build flow_example = Ok st /\ next_in_block st 0 1 /\ next_defined flow_example 0 1 /\ jumps_to flow_example 6 3 /\ next_defined flow_example 1 3 /\ same_condition flow_example 3 1 /\
  ~ next_in_block st 1 3 /\ ~ next_in_block st 3 4.
Proof.
  eexists. split; [vm_compute; reflexivity|].
  split; [exists 8, [], []; vm_compute; auto 10|].
  split; [split; [eexists; split; reflexivity|]; split; [eexists; split; reflexivity|]; split; [lia|]; intros j J; lia|].
  split; [eexists _, _; do 5 (split; [reflexivity|]); intros [|[|[|t]]] d L E; [injection E as <-; discriminate|injection E as <-; discriminate|injection E as <-; discriminate|lia]|].
  split; [split; [eexists; split; reflexivity|]; split; [eexists; split; reflexivity|]; split; [lia|]; intros j J (c & X & Y); assert (j = 2)%nat as -> by lia; injection X as <-; discriminate|].
  split; [exists 14; split; eexists; split; reflexivity|].
  split; intros (b & l1 & l2 & B & Q); vm_compute in B; repeat destruct B as [<-|B]; try destruct B; vm_compute in Q; destruct l1 as [|? [|? [|? l1]]]; discriminate. Qed.
(** A branch that starts its condition leaves the block open, one behind another
    instruction of its condition closes it. *)
Example C170_open_example : let p := [jump 14 0 8; plain 4; jump 14 8 0; plain 12] in
  stays_open p 0 /\ closes p 2 /\ exists st, build p = Ok st /\ next_in_block st 0 1 /\ ~ next_in_block st 2 3.
Proof.
  cbv zeta. set (p := [jump 14 0 8; plain 4; jump 14 8 0; plain 12]). assert (N : forall w x, (w < x < 4)%nat -> (x = S w)%nat -> next_defined p w x).
  { intros w x L ->. destruct w as [|[|[|w]]]; [| | |lia]; (split; [eexists; split; reflexivity|]; split; [eexists; split; reflexivity|]; split; [lia|]; intros j J; lia). }
  split; [apply open_first; intros w (_ & _ & L & _); lia|].
  split; [apply (closes_branch p 1 2); [apply N; lia|exists 14; split; eexists; split; reflexivity|eexists; split; reflexivity|apply open_plain; intros (c & X & Y); injection X as <-; discriminate]|].
  eexists. split; [vm_compute; reflexivity|]. split; [exists 3, [], []; vm_compute; auto 10|].
  intros (b & l1 & l2 & B & Q). vm_compute in B. repeat destruct B as [<-|B]; try destruct B; vm_compute in Q; destruct l1 as [|? [|? [|? l1]]]; discriminate. Qed.
