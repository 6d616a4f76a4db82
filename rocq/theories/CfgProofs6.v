(** Which edges the built graph has. *)
From Verif Require Import ListLemmas.
From Verif Require Export CfgProofs5.
From Coq Require Import ZifyBool ZifyNat Permutation.

Definition nextd (p : list cinst) (x y : nat) : Prop := is_defined p x = true /\ is_defined p y = true /\ (x < y)%nat /\ forall j, (x < j < y)%nat -> is_defined p j = false.
Definition lastd (p : list cinst) (k x : nat) : Prop := is_defined p x = true /\ (x < k)%nat /\ forall j, (x < j < k)%nat -> is_defined p j = false.
Definition firstd (p : list cinst) (y : nat) : Prop := forall j, (j < y)%nat -> is_defined p j = false.
Definition is_link (p : list cinst) (i : nat) : bool := match nth_error p i with Some c => ci_link c | None => false end.
Definition target (p : list cinst) (i : nat) : option nat := match nth_error p i with Some c => branch_to p c | None => None end.
(** The branch [i] follows [x], has its condition and no link. *)
Definition skipped (p : list cinst) (x i : nat) : Prop := nextd p x i /\ is_branch p i = true /\ cond_at p i = cond_at p x /\ is_link p i = false.
Definition follow (p : list cinst) (x y : nat) : Prop :=
  nextd p x y /\ (is_branch p x = false \/ cond_at p y = cond_at p x) \/ exists i, skipped p x i /\ is_branch p x = false /\ nextd p i y.
(** The edges of the branch [i] leave the block that ends with [x]. *)
Definition held (p : list cinst) (i x : nat) : Prop :=
  is_defined p i = true /\ is_branch p i = true /\ (i <= x)%nat /\ forall j, (i < j <= x)%nat -> is_defined p j = true -> cond_at p j = cond_at p i /\ is_branch p j = false.
Definition skips (p : list cinst) (i y : nat) : Prop := (i < y)%nat /\ forall j, (i <= j < y)%nat -> is_defined p j = true -> conditional p j.
(** The call [i] has the condition of the instruction before it. *)
Definition resumes (p : list cinst) (i : nat) : Prop := is_link p i = true /\ exists w, nextd p w i /\ cond_at p i = cond_at p w.
Definition returns (p : list cinst) (i y : nat) : Prop := resumes p i /\ nextd p i y.
Definition final (p : list cinst) (x : nat) : Prop := lastd p (length p) x \/ exists i, skipped p x i /\ lastd p (length p) i.
Definition just (fin : bool) (p : list cinst) (st : cfg) (own : Z -> nat) (s t : nat + Z) : Prop :=
  match s, t with
  | inl x, inl y => follow p x y \/ exists i, held p i x /\ target p i = Some y /\ (y <= i)%nat
  | inl x, inr n => match kind_of st n with Some KCond => follow p x (own n) | Some KUnknown => held p (own n) x /\ target p (own n) = None | Some KEnd => fin = true /\ final p x | _ => False end
  | inr n, inl y => match kind_of st n with Some KCond => y = own n \/ skips p (own n) y | Some KRoot => firstd p y | Some KUnknown => returns p (own n) y | _ => False end
  | inr n, inr m =>
    match kind_of st n, kind_of st m with
    | Some KCond, Some KCond => skips p (own n) (own m) | Some KRoot, Some KCond => firstd p (own m) | Some KUnknown, Some KCond => returns p (own n) (own m)
    | Some KUnknown, Some KEnd => True | Some KRoot, Some KEnd => fin = true /\ firstd p (length p) | _, _ => False end
  end.
Definition sound fin p st own : Prop := (forall s t, arrow st s t -> just fin p st own s t) /\ (forall x y, adjacent st x y -> nextd p x y /\ cond_at p y = cond_at p x).

Lemma just_own fin p st st' own own' s t : (forall n, special st n -> own' n = own n /\ kind_of st' n = kind_of st n) -> (forall n, s = inr n -> special st n) -> (forall n, t = inr n -> special st n) -> just fin p st own s t -> just fin p st' own' s t.
Proof. intros H Hs Ht. unfold just. destruct s as [x|n], t as [y|m]; auto.
  - destruct (H m (Ht m eq_refl)) as [-> ->]. auto.
  - destruct (H n (Hs n eq_refl)) as [-> ->]. auto.
  - destruct (H m (Ht m eq_refl)) as [-> ->]. destruct (H n (Hs n eq_refl)) as [-> ->]. auto. Qed.
Lemma arrow_special st s t : arrow st s t -> (forall n, s = inr n -> special st n) /\ (forall n, t = inr n -> special st n).
Proof. intros (b & b' & S & T & _). split; intros n ->; [apply S|apply T]. Qed.
Lemma special_in st n : good st -> special st n -> In n (nodes st).
Proof. intros G (k & K & _). destruct (in_dec Z.eq_dec n (nodes st)) as [|N]; [auto|]. apply (outside _ _ G) in N as [_ N]. congruence. Qed.
Lemma inst_in st b i : good st -> In i (instructions st b) -> In b (nodes st).
Proof. intros G I. destruct (in_dec Z.eq_dec b (nodes st)) as [|N]; [auto|]. apply (outside _ _ G) in N as [N _]. rewrite N in I. destruct I. Qed.
(** New nodes and edges. *)
Lemma sound_more fin p st st' own own' (L : Z -> Z -> Prop) : good st -> sound fin p st own ->
  (forall n, In n (nodes st) -> instructions st' n = instructions st n /\ kind_of st' n = kind_of st n) ->
  (forall n, In n (nodes st) -> special st n -> own' n = own n) ->
  (forall b, ~ In b (nodes st) -> (length (instructions st' b) <= 1)%nat) ->
  (forall x y, edg st' x y -> edg st x y \/ L x y) ->
  (forall x y s t, L x y -> is_src st' s x -> is_tgt st' t y -> just fin p st' own' s t) -> sound fin p st' own'.
Proof. intros G (J & A) H Ho Hn E N. assert (Sp : forall n, In n (nodes st) -> special st' n -> special st n) by (intros n I (k & K & Nk); exists k; destruct (H n I) as [_ <-]; auto).
  split.
  - intros s t (b & b' & S & T & Eb). destruct (E _ _ Eb) as [Ed|El]; [|eapply N; eassumption]. destruct (edg_nodes _ _ _ G Ed) as [B B'].
    assert (Ar : arrow st s t). { exists b, b'. split; [|split; [|exact Ed]].
      - destruct s as [x|n]; cbn [is_src] in *; [destruct (H b B) as [<- _]; exact S|]. destruct S as [-> S]. auto.
      - destruct t as [x|n]; cbn [is_tgt] in *; [destruct (H b' B') as [<- _]; exact T|]. destruct T as [-> T]. auto. }
    destruct (arrow_special _ _ _ Ar) as [S1 S2]. eapply just_own; [| | |apply J, Ar]; auto. intros n Sn. pose proof (special_in _ _ G Sn) as I. split; [auto|]. apply H, I.
  - intros x y (b & l1 & l2 & Eb). destruct (in_dec Z.eq_dec b (nodes st)) as [B|B]; [|exfalso; specialize (Hn b B); rewrite Eb, app_length in Hn; cbn in Hn; lia]. apply A. exists b, l1, l2. destruct (H b B) as [<- _]. exact Eb. Qed.
Lemma sound_cut fin p st st' own split j : sane st -> In split (nodes st) -> (0 < j < length (instructions st split))%nat -> sound fin p st own ->
  (forall x, instructions st' x = if x =? c_last st + 1 then firstn j (instructions st split) else if x =? split then skipn j (instructions st split) else instructions st x) ->
  (forall x, kind_of st' x = if x =? c_last st + 1 then Some KBlock else kind_of st x) ->
  (forall x y, edg st' x y <-> (edg st x y /\ y <> split) \/ (edg st x split /\ y = c_last st + 1) \/ (x = c_last st + 1 /\ y = split)) -> sound fin p st' own.
Proof. intros (G & L & Kb) Sp J (Ju & A) I' K' E'. pose proof (fresh st G L) as F. destruct (outside st (c_last st + 1) G F) as [O1 O2]. set (up := c_last st + 1) in *.
  assert (Us : up <> split) by (intros X; apply F; rewrite X; exact Sp).
  assert (Iu : instructions st' up = firstn j (instructions st split)) by (rewrite I', Z.eqb_refl; reflexivity).
  assert (Is : instructions st' split = skipn j (instructions st split)) by (rewrite I'; destruct (Z.eqb_spec split up); [congruence|]; rewrite Z.eqb_refl; reflexivity).
  assert (Io : forall x, x <> up -> x <> split -> instructions st' x = instructions st x) by (intros x X Y; rewrite I'; destruct (Z.eqb_spec x up); [congruence|]; destruct (Z.eqb_spec x split); [congruence|reflexivity]).
  assert (Fs : instructions st split = firstn j (instructions st split) ++ skipn j (instructions st split)) by (symmetry; apply firstn_skipn).
  assert (Sg : forall n, special st' n -> special st n). { intros n (k & Hk & Nk). rewrite K' in Hk. destruct (Z.eqb_spec n up); [congruence|]. exists k. auto. }
  assert (Sgk : forall n, special st n -> own n = own n /\ kind_of st' n = kind_of st n). { intros n (k & Hk & Nk). split; [reflexivity|]. rewrite K'. destruct (Z.eqb_spec n up) as [->|]; [congruence|reflexivity]. }
  assert (Src : forall s b, In b (nodes st) -> is_src st' s b -> is_src st s b). { intros s b B S. assert (b <> up) by (intros ->; auto). destruct s as [x|n]; cbn [is_src] in *; [|destruct S as [-> S]; auto]. destruct S as (l & El).
    destruct (Z.eq_dec b split) as [->|Nb]; [|exists l; rewrite <- Io; assumption]. exists (firstn j (instructions st split) ++ l). rewrite Fs, <- Is, El at 1. apply app_assoc. }
  assert (Fwd : forall s t, arrow st s t -> just fin p st' own s t) by (intros s t Ar; destruct (arrow_special _ _ _ Ar) as [S1 S2]; eapply just_own; [exact Sgk|exact S1|exact S2|apply Ju, Ar]).
  split.
  - intros s t (b & b' & S & T & Eb). apply E' in Eb as [[Eb Nb]|[[Eb ->]|[-> ->]]].
    + destruct (edg_nodes _ _ _ G Eb) as [B B']. apply Fwd. exists b, b'. split; [apply Src; assumption|]. split; [|exact Eb]. assert (b' <> up) by (intros ->; auto). destruct t as [y|m]; cbn [is_tgt] in *; [rewrite Io in T by assumption; exact T|]. destruct T as [-> T]. auto.
    + destruct (edg_nodes _ _ _ G Eb) as [B _]. apply Fwd. exists b, split. split; [apply Src; assumption|]. split; [|exact Eb]. destruct t as [y|m]; cbn [is_tgt] in *.
      * destruct T as (l & El). rewrite Iu in El. exists (l ++ skipn j (instructions st split)). rewrite Fs at 1. rewrite El. reflexivity.
      * destruct T as (<- & k & Hk & Nk). rewrite K', Z.eqb_refl in Hk. congruence.
    + destruct s as [x|n]; cbn [is_src] in S; [|destruct S as (<- & k & Hk & Nk); rewrite K', Z.eqb_refl in Hk; congruence]. destruct t as [y|m]; cbn [is_tgt] in T.
      2: { destruct T as (<- & X). apply Sg in X. destruct X as (k & Hk & Nk). assert (X : kind_of st split = Some KBlock) by (apply Kb; intros X; rewrite X in J; cbn in J; lia). congruence. }
      destruct S as (l & El), T as (l' & El'). rewrite Iu in El. rewrite Is in El'. destruct (A x y) as [N C]; [exists split, l, l'; rewrite Fs at 1; rewrite El, El', <- app_assoc; reflexivity|]. left. left. split; [exact N|right; exact C].
  - intros x y (b & l1 & l2 & Eb). destruct (Z.eq_dec b up) as [->|Nu].
    + rewrite Iu in Eb. apply A. exists split, l1, (l2 ++ skipn j (instructions st split)). rewrite Fs at 1. rewrite Eb, <- app_assoc. reflexivity.
    + destruct (Z.eq_dec b split) as [->|Ns]; [|apply A; exists b, l1, l2; rewrite <- Io; assumption]. rewrite Is in Eb. apply A. exists split, (firstn j (instructions st split) ++ l1), l2. rewrite Fs at 1. rewrite Eb. apply app_assoc. Qed.
Lemma sound_edge fin p st own u v st' : sane st -> sound fin p st own -> edge_add st u v = Ok st' -> (forall s t, is_src st s u -> is_tgt st t v -> just fin p st own s t) -> sane st' /\ same st st' /\ sound fin p st' own.
Proof. intros Sn So E H. destruct (edge_add_inv _ _ _ _ Sn E) as (Sn' & _ & S & _ & Ed). split; [exact Sn'|]. split; [exact S|].
  assert (Ed' : forall x y, edg st' x y -> edg st x y \/ (x = u /\ y = v)).
  { pose proof (edge_add_inv _ _ _ _ Sn E) as (_ & _ & _ & Euv & _). assert (In u (nodes st) /\ In v (nodes st)) as [U V]. { pose proof (edg_nodes _ _ _ (proj1 Sn') Euv) as X. pose proof S as (_ & _ & _ & Nn). rewrite Nn in X. exact X. }
    destruct (has_edge (c_graph st) u v) eqn:Hh.
    - exfalso. unfold edge_add, add_edge in E. apply has_edge_iff in Hh. pose proof Hh as Hi. destruct (good_wf _ (proj1 Sn)) as (_ & _ & W3 & _). apply W3 in Hi. unfold edge, nb in Hh. unfold inc in Hi.
      destruct (dget (node_neighbors (c_graph st)) u) as [nu|]; [|discriminate]. destruct (dget (node_incidence (c_graph st)) v) as [iv|]; [|discriminate].
      destruct (dmem (node_neighbors (c_graph st)) v); [|discriminate]. assert (Z1 : zmem v nu = true) by (apply zmem_in; exact Hh). assert (Z2 : zmem u iv = true) by (apply zmem_in; exact Hi). rewrite Z1, Z2 in E. discriminate.
    - destruct (edge_add_ok st u v (proj1 Sn) U V) as (st1 & E1 & _ & _ & H1). { intros X. apply has_edge_iff in X. congruence. } assert (st1 = st') as -> by congruence. intros x y X. apply H1, X. }
  eapply (sound_more fin p st st' own own (fun x y => x = u /\ y = v)); [apply Sn|exact So| | | |exact Ed'|].
  - intros n _. split; [apply same_inst, S|apply same_kind, S].
  - reflexivity.
  - intros b B. rewrite (same_inst _ _ _ S). apply (outside _ _ (proj1 Sn)) in B as [-> _]. cbn. lia.
  - intros x y s t [-> ->] Hs Ht. eapply just_own; [| | |apply H].
    + intros n _. split; [reflexivity|apply same_kind, S].
    + intros n ->. destruct Hs as [-> (k & K & Nk)]. exists k. rewrite <- (same_kind _ _ _ S). auto.
    + intros n ->. destruct Ht as [-> (k & K & Nk)]. exists k. rewrite <- (same_kind _ _ _ S). auto.
    + destruct s as [z|n]; cbn [is_src] in *; [rewrite <- (same_inst _ _ _ S); exact Hs|]. destruct Hs as [-> (k & K & Nk)]. split; [reflexivity|]. exists k. rewrite <- (same_kind _ _ _ S). auto.
    + destruct t as [z|n]; cbn [is_tgt] in *; [rewrite <- (same_inst _ _ _ S); exact Ht|]. destruct Ht as [-> (k & K & Nk)]. split; [reflexivity|]. exists k. rewrite <- (same_kind _ _ _ S). auto. Qed.
Lemma sound_edge_once fin p st own u v st' : sane st -> sound fin p st own -> edge_add_once st u v = Ok st' -> (forall s t, is_src st s u -> is_tgt st t v -> just fin p st own s t) -> sane st' /\ same st st' /\ sound fin p st' own.
Proof. intros Sn So. unfold edge_add_once. destruct (has_edge (c_graph st) u v); [|now apply sound_edge]. intros E _. injection E as <-. split; [exact Sn|]. split; [apply same_refl|exact So]. Qed.
Lemma sound_node fin p st own K l st' n k : sane st -> sound fin p st own -> (K <> KBlock -> l = []) -> (length l <= 1)%nat -> new_node st K l = Ok (st', n) ->
  sane st' /\ sound fin p st' (fun x => if x =? n then k else own x) /\ kind_of st' n = Some K /\ instructions st' n = l /\ nodes st' = nodes st ++ [n] /\ ~ In n (nodes st) /\
  (forall x, x <> n -> instructions st' x = instructions st x /\ kind_of st' x = kind_of st x) /\ c_pending st' = c_pending st.
Proof. intros Sn So Hl Ll E. destruct (new_node_inv _ _ _ _ _ Sn Hl E) as (En & Sn' & _ & Kn & In' & N & Ed & I & Kd & Pe). pose proof (fresh st (proj1 Sn) (proj1 (proj2 Sn))) as F. rewrite <- En in F.
  split; [exact Sn'|]. split; [|split; [exact Kn|split; [exact In'|split; [exact N|split; [exact F|split; [|exact Pe]]]]]].
  - eapply (sound_more fin p st st' own _ (fun _ _ => False)); [apply Sn|exact So| | | | |].
    + intros m M. assert (m <> n) by (intros ->; auto). split; [rewrite I; destruct (Z.eqb_spec m n); [contradiction|reflexivity]|auto].
    + intros m M _. destruct (Z.eqb_spec m n) as [->|]; [contradiction|reflexivity].
    + intros b B. rewrite I. destruct (b =? n); [exact Ll|]. apply (outside _ _ (proj1 Sn)) in B as [-> _]. cbn. lia.
    + intros x y X. left. apply Ed, X.
    + contradiction.
  - intros x X. split; [rewrite I; destruct (Z.eqb_spec x n); [contradiction|reflexivity]|auto]. Qed.

(** ** One instruction *)
Definition reach (p : list cinst) (st : cfg) (own : Z -> nat) (s : nat + Z) (y : nat) : Prop :=
  match s with
  | inl x => follow p x y
  | inr n => match kind_of st n with Some KCond => skips p (own n) y | Some KRoot => firstd p y | Some KUnknown => returns p (own n) y | _ => False end
  end.
Lemma reach_block fin p st own s y : reach p st own s y -> just fin p st own s (inl y).
Proof. destruct s as [x|n]; cbn [reach just]; [auto|]. destruct (kind_of st n) as [[]|]; auto. Qed.
Lemma reach_cond fin p st own s y m : kind_of st m = Some KCond -> own m = y -> reach p st own s y -> just fin p st own s (inr m).
Proof. intros K <-. destruct s as [x|n]; cbn [reach just]; rewrite K; [auto|]. destruct (kind_of st n) as [[]|]; auto. Qed.
(** Nodes of [st] as seen in [st']. *)
Definition agrees (st st' : cfg) (own own' : Z -> nat) : Prop :=
  forall n, In n (nodes st) -> In n (nodes st') /\ own' n = own n /\ kind_of st' n = kind_of st n /\ instructions st' n = instructions st n.
Lemma agrees_trans a b c o1 o2 o3 : agrees a b o1 o2 -> agrees b c o2 o3 -> agrees a c o1 o3.
Proof. intros H H' n N. destruct (H n N) as (A1 & A2 & A3 & A4). destruct (H' n A1) as (B1 & B2 & B3 & B4). repeat split; congruence. Qed.
Lemma agrees_same st st' own : same st st' -> agrees st st' own own.
Proof. intros S n N. pose proof S as (_ & _ & _ & Nn). rewrite Nn, (same_kind _ _ _ S), (same_inst _ _ _ S). auto. Qed.
Lemma agrees_src p st st' own own' s n y : agrees st st' own own' -> In n (nodes st) -> (forall s, is_src st s n -> reach p st own s y) -> is_src st' s n -> reach p st' own' s y.
Proof. intros A N H S. destruct (A n N) as (_ & A2 & A3 & A4). destruct s as [x|m]; cbn [is_src] in S.
  - apply (H (inl x)). cbn [is_src]. rewrite <- A4. exact S.
  - destruct S as [<- (k & K & Nk)]. cbn [reach]. rewrite A3, A2. apply (H (inr n)). split; [reflexivity|]. exists k. rewrite <- A3. auto. Qed.
Lemma node_agrees st st' own n k : ~ In n (nodes st) -> nodes st' = nodes st ++ [n] -> (forall x, x <> n -> instructions st' x = instructions st x /\ kind_of st' x = kind_of st x) -> agrees st st' own (fun x => if x =? n then k else own x).
Proof. intros F N O x X. assert (x <> n) by (intros ->; auto). destruct (O x H). split; [rewrite N; apply in_app_iff; auto|]. split; [destruct (Z.eqb_spec x n); [contradiction|reflexivity]|]. auto. Qed.
Lemma src_one st b k s : sane st -> instructions st b = [k] -> is_src st s b -> s = inl k.
Proof. intros Sn I. destruct s as [x|n]; cbn [is_src].
  - intros (l & E). rewrite I in E. destruct l as [|q l]; [injection E as ->; reflexivity|]. injection E as _ E. destruct l; discriminate E.
  - intros (<- & k' & K & Nk). exfalso. assert (X : kind_of st b = Some KBlock) by (apply Sn; rewrite I; discriminate). congruence. Qed.
Lemma tgt_first st b k l s : sane st -> instructions st b = k :: l -> is_tgt st s b -> s = inl k.
Proof. intros Sn I. destruct s as [x|n]; cbn [is_tgt].
  - intros (l' & E). rewrite I in E. injection E as -> _. reflexivity.
  - intros (<- & k' & K & Nk). exfalso. assert (X : kind_of st b = Some KBlock) by (apply Sn; rewrite I; discriminate). congruence. Qed.
Lemma place_special st n k s : sane st -> kind_of st n = Some k -> k <> KBlock -> is_src st s n \/ is_tgt st s n -> s = inr n.
Proof. intros Sn K Nk H. destruct s as [x|m]; [exfalso|destruct H as [[-> _]|[-> _]]; reflexivity]. assert (X : instructions st n <> []). { destruct H as [(l & ->)|(l & ->)]; [destruct l|]; discriminate. } apply Sn in X. congruence. Qed.

Lemma sound_conditional p st own k c cb lc st' b lc' : sane st -> sound false p st own -> In cb (nodes st) -> (forall n, lc = Some n -> In n (nodes st) /\ kind_of st n = Some KCond /\ skips p (own n) k) ->
  dget (c_pending st) (Z.of_nat k) = None -> (last_is_branch p st cb = false -> forall s, is_src st s cb -> reach p st own s k) ->
  branch_conditional p st k c cb lc = Ok (st', (b, lc')) ->
  exists own', sane st' /\ sound false p st' own' /\ agrees st st' own own' /\ instructions st' b = [k] /\ In b (nodes st') /\
    (forall n, kind_of st' n = Some KCond -> kind_of st n = Some KCond \/ own' n = k /\ arrow st' (inr n) (inl k)) /\
    if ci_cond c =? cond_always then lc' = None else exists n, lc' = Some n /\ In n (nodes st') /\ kind_of st' n = Some KCond /\ own' n = k.
Proof.
  intros Sn So Cb Hlc Pn Hcb. unfold branch_conditional. destruct (new_node st KBlock [k]) as [[st1 b1]|] eqn:E1; [|discriminate]. cbn [bind].
  destruct (sound_node false p st own KBlock [k] st1 b1 k Sn So ltac:(intros X; destruct (X eq_refl)) ltac:(cbn; lia) E1) as (Sn1 & So1 & Kb1 & Ib1 & N1 & F1 & O1 & P1).
  set (own1 := fun x => if x =? b1 then k else own x) in *. pose proof (node_agrees st st1 own b1 k F1 N1 O1) as A1. fold own1 in A1.
  assert (Bn1 : In b1 (nodes st1)) by (rewrite N1; apply in_app_iff; right; left; reflexivity).
  assert (Rl : forall n, lc = Some n -> forall s, is_src st s n -> reach p st own s k). { intros n En s S. destruct (Hlc n En) as (_ & K & R). rewrite (place_special _ _ _ _ Sn K ltac:(discriminate) (or_introl S)). cbn [reach]. rewrite K. exact R. }
  assert (Lb : forall st2 own2, agrees st st2 own own2 -> last_is_branch p st2 cb = last_is_branch p st cb) by (intros st2 own2 A; apply last_branch_inst, (A cb Cb)).
  destruct (ci_cond c =? cond_always).
  - assert (H2 : forall st2, (if last_is_branch p st1 cb then Ok st1 else edge_add st1 cb b1) = Ok st2 -> sane st2 /\ same st1 st2 /\ sound false p st2 own1).
    { intros st2. rewrite (Lb _ _ A1). destruct (last_is_branch p st cb) eqn:El; intros E; [injection E as <-; split; [auto|]; split; [apply same_refl|auto]|].
      eapply sound_edge; [exact Sn1|exact So1|exact E|]. intros s t S T. rewrite (tgt_first _ _ _ _ _ Sn1 Ib1 T). apply reach_block. eapply agrees_src; [exact A1|exact Cb|apply Hcb; reflexivity|exact S]. }
    destruct (if last_is_branch p st1 cb then Ok st1 else edge_add st1 cb b1) as [st2|] eqn:E2; [|discriminate]. cbn [bind]. destruct (H2 st2 eq_refl) as (Sn2 & S2 & So2). clear H2.
    pose proof (agrees_trans _ _ _ _ _ _ A1 (agrees_same _ _ own1 S2)) as A2. assert (Ib2 : instructions st2 b1 = [k]) by (rewrite (same_inst _ _ _ S2); exact Ib1).
    assert (H3 : forall st3, match lc with Some lc => edge_add_once st2 lc b1 | None => Ok st2 end = Ok st3 -> sane st3 /\ same st2 st3 /\ sound false p st3 own1).
    { intros st3. destruct lc as [x|]; intros E; [|injection E as <-; split; [auto|]; split; [apply same_refl|auto]].
      eapply sound_edge_once; [exact Sn2|exact So2|exact E|]. intros s t S T. rewrite (tgt_first _ _ _ _ _ Sn2 Ib2 T). apply reach_block. eapply agrees_src; [exact A2|apply Hlc; reflexivity|apply Rl; reflexivity|exact S]. }
    destruct (match lc with Some lc => edge_add_once st2 lc b1 | None => Ok st2 end) as [st3|]; [|discriminate]. cbn [bind]. destruct (H3 st3 eq_refl) as (Sn3 & S3 & So3).
    intros E. injection E as <- <- <-. exists own1. split; [exact Sn3|]. split; [exact So3|]. split; [exact (agrees_trans _ _ _ _ _ _ A2 (agrees_same _ _ own1 S3))|]. split; [rewrite (same_inst _ _ _ S3); exact Ib2|].
    split; [pose proof S3 as (_ & _ & _ & ->); pose proof S2 as (_ & _ & _ & ->); exact Bn1|]. split; [|reflexivity].
    intros n. rewrite (same_kind _ _ _ S3), (same_kind _ _ _ S2). intros K. left. destruct (Z.eq_dec n b1) as [->|Ne]; [congruence|]. rewrite <- (proj2 (O1 n Ne)). exact K.
  - destruct (new_node st1 KCond []) as [[st2 n]|] eqn:E2; [|discriminate]. cbn [bind].
    destruct (sound_node false p st1 own1 KCond [] st2 n k Sn1 So1 ltac:(auto) ltac:(cbn; lia) E2) as (Sn2 & So2 & Kn2 & In2 & N2 & F2 & O2 & P2).
    set (own2 := fun x => if x =? n then k else own1 x) in *. pose proof (node_agrees st1 st2 own1 n k F2 N2 O2) as A12. fold own2 in A12. pose proof (agrees_trans _ _ _ _ _ _ A1 A12) as A2.
    assert (On : own2 n = k) by (unfold own2; rewrite Z.eqb_refl; reflexivity). assert (Ib2 : instructions st2 b1 = [k]) by (destruct (A12 b1 Bn1) as (_ & _ & _ & ->); exact Ib1).
    destruct (edge_add st2 n b1) as [st3|] eqn:E3; [|discriminate]. cbn [bind].
    destruct (sound_edge false p st2 own2 n b1 st3 Sn2 So2 E3) as (Sn3 & S3 & So3).
    { intros s t S T. rewrite (tgt_first _ _ _ _ _ Sn2 Ib2 T), (place_special _ _ _ _ Sn2 Kn2 ltac:(discriminate) (or_introl S)). cbn [just]. rewrite Kn2, On. left. reflexivity. }
    destruct (edge_add_inv _ _ _ _ Sn2 E3) as (_ & _ & _ & Enb & _).
    pose proof (agrees_trans _ _ _ _ _ _ A2 (agrees_same _ _ own2 S3)) as A3. assert (Kn3 : kind_of st3 n = Some KCond) by (rewrite (same_kind _ _ _ S3); exact Kn2).
    assert (H4 : forall st4, (if last_is_branch p st3 cb then Ok st3 else edge_add st3 cb n) = Ok st4 -> sane st4 /\ same st3 st4 /\ sound false p st4 own2 /\ edg st4 n b1).
    { intros st4. rewrite (Lb _ _ A3). destruct (last_is_branch p st cb) eqn:El; intros E; [injection E as <-; split; [auto|]; split; [apply same_refl|auto]|].
      destruct (edge_add_inv _ _ _ _ Sn3 E) as (_ & _ & _ & _ & Mono). destruct (sound_edge false p st3 own2 cb n st4 Sn3 So3 E) as (X1 & X2 & X3); [|split; [exact X1|]; split; [exact X2|]; split; [exact X3|apply Mono, Enb]].
      intros s t S T. rewrite (place_special _ _ _ _ Sn3 Kn3 ltac:(discriminate) (or_intror T)). eapply reach_cond; [exact Kn3|exact On|]. eapply agrees_src; [exact A3|exact Cb|apply Hcb; reflexivity|exact S]. }
    destruct (if last_is_branch p st3 cb then Ok st3 else edge_add st3 cb n) as [st4|] eqn:E4; [|discriminate]. cbn [bind]. destruct (H4 st4 eq_refl) as (Sn4 & S4 & So4 & En4). clear H4.
    pose proof (agrees_trans _ _ _ _ _ _ A3 (agrees_same _ _ own2 S4)) as A4. assert (Kn4 : kind_of st4 n = Some KCond) by (rewrite (same_kind _ _ _ S4); exact Kn3).
    assert (H5 : forall st5, match lc with Some lc => edge_add_once st4 lc n | None => Ok st4 end = Ok st5 -> sane st5 /\ same st4 st5 /\ sound false p st5 own2 /\ edg st5 n b1).
    { intros st5. destruct lc as [x|]; intros E; [|injection E as <-; split; [auto|]; split; [apply same_refl|auto]].
      destruct (edge_once_inv _ _ _ _ Sn4 E) as (_ & _ & _ & _ & Mono). destruct (sound_edge_once false p st4 own2 x n st5 Sn4 So4 E) as (X1 & X2 & X3); [|split; [exact X1|]; split; [exact X2|]; split; [exact X3|apply Mono, En4]].
      intros s t S T. rewrite (place_special _ _ _ _ Sn4 Kn4 ltac:(discriminate) (or_intror T)). eapply reach_cond; [exact Kn4|exact On|]. eapply agrees_src; [exact A4|apply Hlc; reflexivity|apply Rl; reflexivity|exact S]. }
    destruct (match lc with Some lc => edge_add_once st4 lc n | None => Ok st4 end) as [st5|]; [|discriminate]. cbn [bind]. destruct (H5 st5 eq_refl) as (Sn5 & S5 & So5 & En5).
    assert (Pk : dget (c_pending st5) (Z.of_nat k) = None). { destruct S5 as (_ & _ & -> & _). destruct S4 as (_ & _ & -> & _). destruct S3 as (_ & _ & -> & _). rewrite P2, P1. exact Pn. }
    rewrite Pk. cbn [bind]. intros E. injection E as <- <- <-. exists own2. pose proof (same_trans _ _ _ S3 (same_trans _ _ _ S4 S5)) as S6. pose proof S6 as (_ & _ & _ & N6).
    assert (Ib5 : instructions st5 b1 = [k]) by (rewrite (same_inst _ _ _ S6); exact Ib2). assert (Kn5 : kind_of st5 n = Some KCond) by (rewrite (same_kind _ _ _ S6); exact Kn2).
    split; [exact Sn5|]. split; [exact So5|]. split; [exact (agrees_trans _ _ _ _ _ _ A4 (agrees_same _ _ own2 S5))|]. split; [exact Ib5|].
    split; [rewrite N6, N2; apply in_app_iff; left; exact Bn1|]. split.
    + intros m K. destruct (Z.eq_dec m n) as [->|Ne].
      * right. split; [exact On|]. exists n, b1. split; [split; [reflexivity|exists KCond; split; [exact Kn5|discriminate]]|]. split; [exists []; exact Ib5|exact En5].
      * left. rewrite (same_kind _ _ _ S6), (proj2 (O2 m Ne)) in K. destruct (Z.eq_dec m b1) as [->|Ne1]; [congruence|]. rewrite <- (proj2 (O1 m Ne1)). exact K.
    + exists n. split; [reflexivity|]. split; [rewrite N6, N2; apply in_app_iff; right; left; reflexivity|]. split; [exact Kn5|exact On]. Qed.

Lemma held_self p k : is_defined p k = true -> is_branch p k = true -> held p k k.
Proof. intros D B. split; [exact D|]. split; [exact B|]. split; [lia|]. intros j J. lia. Qed.
Lemma sound_tail p st own k c cb b st' cb' : sane st -> sound false p st own -> In b (nodes st) -> kind_of st 2 = Some KEnd -> instructions st b = [k] -> nth_error p k = Some c -> is_defined p k = true -> ci_branch c = true ->
  branch_tail p st cb b k c 2 = Ok (st', cb') -> (forall n j, In j (instructions st' n) -> (j <= k)%nat) ->
  exists own', sane st' /\ sound false p st' own' /\ (forall n, In n (nodes st) -> In n (nodes st') /\ own' n = own n /\ kind_of st' n = kind_of st n) /\ (forall n, kind_of st' n = Some KCond -> kind_of st n = Some KCond) /\
    (forall n x l, instructions st n = l ++ [x] -> exists l', instructions st' n = l' ++ [x]) /\
    (if ci_link c then cb' = Some b \/ exists u, cb' = Some u /\ In u (nodes st') /\ kind_of st' u = Some KUnknown /\ own' u = k else cb' = cb).
Proof.
  intros Sn So Bn K2 Ib Ec D Br. assert (Bk : is_branch p k = true) by (unfold is_branch; now rewrite Ec). pose proof (held_self p k D Bk) as Hk.
  unfold branch_tail. destruct (branch_to p c) as [t|] eqn:Bt.
  - assert (Tk : target p k = Some t) by (unfold target; now rewrite Ec).
    destruct (node_with_inst st t) as [s|] eqn:Nw.
    + apply node_with_inst_some in Nw as [Ns It]. destruct (split_node st s b t) as [st1|] eqn:E1; [|discriminate]. cbn [bind]. intros E. injection E as <- <-. intros Le. exists own.
      unfold split_node in E1. destruct (nindex_ok t _ It) as (j & Ej & Lj & Hj). rewrite Ej in E1. cbn [bind] in E1.
      assert (Go : forall st0, sane st0 -> sound false p st0 own -> instructions st0 b = [k] -> (exists l, instructions st0 s = t :: l) -> edge_add st0 b s = Ok st1 -> sane st1 /\ same st0 st1 /\ sound false p st1 own).
      { intros st0 Sn0 So0 Ib0 (l & Is0) E0. assert (Lt : (t <= k)%nat). { destruct (edge_add_inv _ _ _ _ Sn0 E0) as (_ & _ & Sm & _). apply (Le s). rewrite (same_inst _ _ _ Sm), Is0. left. reflexivity. }
        eapply sound_edge; [exact Sn0|exact So0|exact E0|]. intros s0 t0 S T. rewrite (src_one _ _ _ _ Sn0 Ib0 S), (tgt_first _ _ _ _ _ Sn0 Is0 T). right. exists k. auto. }
      assert (Hc : if ci_link c then (if ci_link c then Some b else cb) = Some b \/ (exists u, (if ci_link c then Some b else cb) = Some u /\ In u (nodes st1) /\ kind_of st1 u = Some KUnknown /\ own u = k) else (if ci_link c then Some b else cb) = cb) by (destruct (ci_link c); auto).
      destruct j as [|j].
      * cbn [bind] in E1. destruct (Go st Sn So Ib) as (Sn1 & S1 & So1); [|exact E1|]. { destruct (instructions st s) as [|q l]; [destruct It|]. cbn in Hj. exists l. destruct (Nat.eqb_spec q t) as [->|]; [reflexivity|]. exfalso. cbn in Ej. destruct (Nat.eqb_spec q t); [contradiction|]. destruct (nindex t l); discriminate Ej. }
        split; [exact Sn1|]. split; [exact So1|]. split; [intros n N; pose proof S1 as (_ & _ & _ & ->); rewrite (same_kind _ _ _ S1); auto|]. split; [intros n; rewrite (same_kind _ _ _ S1); auto|]. split; [intros n x l; rewrite (same_inst _ _ _ S1); eauto|exact Hc].
      * destruct (cut_ok st s (S j) (proj1 Sn) Ns ltac:(lia) (proj1 (proj2 Sn))) as (st0 & E0 & G0 & L0 & P0 & N0 & I0 & Kd0 & Ed0). cbv zeta in E0. rewrite E0 in E1. cbn [bind] in E1.
        destruct (cut_keeps st st0 s (S j) Sn Ns ltac:(lia) G0 L0 I0 Kd0 Ed0) as [Sn0 Kp0]. pose proof (sound_cut false p st st0 own s (S j) Sn Ns ltac:(lia) So I0 Kd0 Ed0) as So0.
        pose proof (fresh st (proj1 Sn) (proj1 (proj2 Sn))) as F.
        assert (Nb : b <> c_last st + 1) by (intros X; apply F; rewrite <- X; exact Bn). assert (Ne : s <> c_last st + 1) by (intros X; apply F; rewrite <- X; exact Ns).
        assert (Is0 : instructions st0 s = skipn (S j) (instructions st s)) by (rewrite I0; destruct (Z.eqb_spec s (c_last st + 1)); [contradiction|]; rewrite Z.eqb_refl; reflexivity).
        destruct (Go st0 Sn0 So0) as (Sn1 & S1 & So1); [| |exact E1|].
        { rewrite I0. destruct (Z.eqb_spec b (c_last st + 1)); [contradiction|]. destruct (Z.eqb_spec b s) as [->|]; [rewrite Ib in Lj; cbn in Lj; lia|exact Ib]. }
        { rewrite Is0. clear -Hj. revert Hj. generalize (instructions st s). generalize (S j). clear. induction n as [|n IH]; intros [|q l] H; cbn in H |- *; try discriminate; [injection H as ->; eauto|auto]. }
        split; [exact Sn1|]. split; [exact So1|]. split; [|split; [|split; [|exact Hc]]].
        -- intros n N. assert (n <> c_last st + 1) by (intros ->; contradiction). pose proof S1 as (_ & _ & _ & ->). rewrite (same_kind _ _ _ S1), Kd0. destruct (Z.eqb_spec n (c_last st + 1)); [contradiction|]. split; [rewrite N0; apply in_app_iff; auto|auto].
        -- intros n. rewrite (same_kind _ _ _ S1), Kd0. destruct (n =? c_last st + 1); [discriminate|auto].
        -- intros n x l En. assert (n <> c_last st + 1). { intros ->. apply F. eapply inst_in; [apply Sn|]. rewrite En. apply in_app_iff. right. left. reflexivity. }
           rewrite (same_inst _ _ _ S1), I0. destruct (Z.eqb_spec n (c_last st + 1)); [contradiction|]. destruct (Z.eqb_spec n s) as [->|]; [|eauto]. rewrite En in Lj |- *. rewrite app_length in Lj. cbn [length] in Lj. exists (skipn (S j) l). rewrite skipn_app. replace (S j - length l)%nat with 0%nat by lia. reflexivity.
    + cbn [bind]. intros E. injection E as <- <-. intros _. exists own. split; [exact Sn|]. split; [exact So|]. split; [auto|]. split; [auto|]. split; [eauto|]. destruct (ci_link c); auto.
  - assert (Tk : target p k = None) by (unfold target; now rewrite Ec).
    destruct (new_node st KUnknown []) as [[st1 u]|] eqn:E1; [|discriminate]. cbn [bind].
    destruct (sound_node false p st own KUnknown [] st1 u k Sn So ltac:(auto) ltac:(cbn; lia) E1) as (Sn1 & So1 & Ku1 & Iu1 & N1 & F1 & O1 & P1).
    set (own1 := fun x => if x =? u then k else own x) in *. pose proof (node_agrees st st1 own u k F1 N1 O1) as A1. fold own1 in A1. assert (Ou : own1 u = k) by (unfold own1; rewrite Z.eqb_refl; reflexivity).
    destruct (A1 b Bn) as (_ & _ & _ & Ib1). rewrite Ib in Ib1.
    destruct (edge_add st1 b u) as [st2|] eqn:E2; [|discriminate]. cbn [bind]. destruct (sound_edge false p st1 own1 b u st2 Sn1 So1 E2) as (Sn2 & S2 & So2).
    { intros s t S T. rewrite (src_one _ _ _ _ Sn1 Ib1 S), (place_special _ _ _ _ Sn1 Ku1 ltac:(discriminate) (or_intror T)). cbn [just]. rewrite Ku1, Ou. auto. }
    assert (Ku2 : kind_of st2 u = Some KUnknown) by (rewrite (same_kind _ _ _ S2); exact Ku1).
    assert (K22 : kind_of st2 2 = Some KEnd). { assert (Nu : 2 <> u) by (intros X; apply F1; rewrite <- X; apply special_in; [apply Sn|exists KEnd; split; [exact K2|discriminate]]). rewrite (same_kind _ _ _ S2), (proj2 (O1 2 Nu)). exact K2. }
    destruct (edge_add st2 u 2) as [st3|] eqn:E3; [|discriminate]. cbn [bind]. destruct (sound_edge false p st2 own1 u 2 st3 Sn2 So2 E3) as (Sn3 & S3 & So3).
    { intros s t S T. rewrite (place_special _ _ _ _ Sn2 K22 ltac:(discriminate) (or_intror T)), (place_special _ _ _ _ Sn2 Ku2 ltac:(discriminate) (or_introl S)). cbn [just]. rewrite Ku2, K22. exact I. }
    intros E. injection E as <- <-. intros _. exists own1. pose proof (same_trans _ _ _ S2 S3) as S4. pose proof S4 as (_ & _ & _ & N4).
    split; [exact Sn3|]. split; [exact So3|]. split; [|split; [|split]].
    + intros n N. destruct (A1 n N) as (X1 & X2 & X3 & _). rewrite N4, (same_kind _ _ _ S4). auto.
    + intros n. rewrite (same_kind _ _ _ S4). intros K. destruct (Z.eq_dec n u) as [->|Ne]; [congruence|]. rewrite <- (proj2 (O1 n Ne)). exact K.
    + intros n x l En. rewrite (same_inst _ _ _ S4). assert (Ne : n <> u). { intros ->. apply F1. eapply inst_in; [apply Sn|]. rewrite En. apply in_app_iff. right. left. reflexivity. } rewrite (proj1 (O1 n Ne)). eauto.
    + destruct (ci_link c); [|reflexivity]. right. exists u. split; [reflexivity|]. split; [rewrite N4, N1; apply in_app_iff; right; left; reflexivity|]. split; [rewrite (same_kind _ _ _ S4); exact Ku1|exact Ou]. Qed.

Lemma last_unique {A} (l l' : list A) x y : l ++ [x] = l' ++ [y] -> x = y. Proof. intros H. apply app_inj_tail in H as [_ H]. exact H. Qed.
Lemma sound_append p st own cb l x k : sane st -> In cb (nodes st) -> instructions st cb = l ++ [x] -> sound false p st own ->
  lastd p k x -> is_defined p k = true -> cond_at p k = cond_at p x -> is_branch p k = false -> (forall n, kind_of st n = Some KCond -> (own n < k)%nat) -> (forall b j, In j (instructions st b) -> (j < k)%nat) ->
  sound false p (set_instructions st cb (instructions st cb ++ [k])) own.
Proof.
  intros Sn B I (J & A) Lx D Ck Bk Ow Lt. destruct (set_inst_ok st cb (instructions st cb ++ [k]) (proj1 Sn) B) as (G' & Gr & L' & P' & I' & Kd). set (st' := set_instructions st cb (instructions st cb ++ [k])) in *.
  assert (Ic : instructions st' cb = l ++ [x; k]) by (rewrite I', Z.eqb_refl, I, <- app_assoc; reflexivity).
  assert (Io : forall b, b <> cb -> instructions st' b = instructions st b) by (intros b N; rewrite I'; destruct (Z.eqb_spec b cb); [contradiction|reflexivity]).
  assert (Sp : forall n, special st' n -> special st n) by (intros n (q & Q & Nq); exists q; rewrite <- Kd; auto).
  assert (Kj : forall s t, just false p st own s t -> just false p st' own s t). { intros s t. unfold just. destruct s, t; rewrite ?Kd; auto. }
  assert (Nk : forall y, (y < k)%nat -> ~ follow p x y). { intros y Ly [[(Dx & Dy & Lxy & _) _]|(i & ((_ & Di & Lxi & _) & _) & _ & (_ & Dy & Liy & _))]; destruct Lx as (_ & _ & Lx); [rewrite Lx in Dy by lia|rewrite Lx in Dy by lia]; discriminate. }
  assert (Hh : forall i, held p i x -> held p i k). { intros i (Di & Bi & Lix & H). split; [exact Di|]. split; [exact Bi|]. destruct Lx as (Dx & Lxk & Lx). split; [lia|]. intros j Hj Dj. destruct (Nat.le_gt_cases j x) as [Le|Gt]; [apply H; [lia|exact Dj]|]. destruct (Nat.eq_dec j k) as [->|Ne]; [|rewrite Lx in Dj by lia; discriminate].
    split; [|exact Bk]. rewrite Ck. destruct (Nat.eq_dec i x) as [->|Nix]; [reflexivity|]. apply H; [lia|exact Dx]. }
  split.
  - intros s t (a & b & S & T & E). assert (Ed : edg st a b) by (unfold edg in *; rewrite Gr in E; exact E). destruct (edg_nodes _ _ _ (proj1 Sn) Ed) as [An Bn].
    assert (T' : is_tgt st t b). { destruct t as [y|m]; cbn [is_tgt] in *; [|destruct T as [-> T]; auto]. destruct (Z.eq_dec b cb) as [->|Nb]; [|rewrite <- Io; assumption]. destruct T as (q & Q). rewrite Ic in Q. rewrite I. destruct l as [|z l]; injection Q as -> _; [exists []; reflexivity|exists (l ++ [x]); reflexivity]. }
    destruct (Z.eq_dec a cb) as [->|Na].
    + destruct s as [z|m]; cbn [is_src] in S; [|destruct S as (<- & q & Q & Nq); exfalso; assert (X : kind_of st cb = Some KBlock) by (apply Sn; rewrite I; destruct l; discriminate); rewrite Kd in Q; congruence].
      destruct S as (q & Q). rewrite Ic in Q. change [x; k] with ([x] ++ [k]) in Q. rewrite app_assoc in Q. apply last_unique in Q as <-.
      assert (Ar : arrow st (inl x) t) by (exists cb, b; split; [exists l; exact I|]; auto). pose proof (J _ _ Ar) as Ju. apply Kj. destruct t as [y|m]; cbn [just] in Ju |- *.
      * destruct Ju as [Ju|(i & Hi & Ti)]; [exfalso|right; eauto]. apply (Nk y); [|exact Ju]. destruct T' as (q' & Q'). apply (Lt b). rewrite Q'. left. reflexivity.
      * destruct (kind_of st m) as [[]|] eqn:Km; try contradiction; [exfalso; apply (Nk (own m)); auto| |destruct Ju; discriminate]. destruct Ju as [Ju1 Ju2]. split; [apply Hh, Ju1|exact Ju2].
    + apply Kj, J. exists a, b. split; [|auto]. destruct s as [z|m]; cbn [is_src] in *; [rewrite <- Io; assumption|]. destruct S as [-> S]. auto.
  - intros u v (b & l1 & l2 & E). destruct (Z.eq_dec b cb) as [->|Nb]; [|apply A; exists b, l1, l2; rewrite <- Io; assumption]. rewrite Ic in E. destruct l2 as [|w l2] using rev_ind.
    + change [x; k] with ([x] ++ [k]) in E. change [u; v] with ([u] ++ [v]) in E. rewrite !app_assoc in E. apply app_inj_tail in E as [E ->]. apply last_unique in E as ->. split; [|exact Ck]. destruct Lx as (Dx & Lxk & Lx). split; [exact Dx|]. split; [exact D|]. auto.
    + clear IHl2. apply A. exists cb, l1, l2. rewrite I. change (l ++ [x; k]) with (l ++ [x] ++ [k]) in E. change (l1 ++ u :: v :: l2 ++ [w]) with (l1 ++ (u :: v :: l2) ++ [w]) in E. rewrite !app_assoc in E. apply app_inj_tail in E as [E _]. exact E. Qed.
