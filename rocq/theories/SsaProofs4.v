(** Placement of phi functions, dead phi functions and the value dependency graph. *)
From Verif Require Import ListLemmas.
From Verif Require Export SsaProofs3.
From Coq Require Import ZifyBool ZifyNat.

(** ** The scan *)
Definition wr (bl : dict (list Z)) (w : Z) : list Z := match dget bl w with Some l => l | None => [] end.
Definition scan_w (node : Z) (s : dict (list Z) * list Z) (w : Z) : dict (list Z) * list Z :=
  let '(bl, kill) := s in
  let kill := if zmem w kill then kill else kill ++ [w] in
  (match dget bl w with Some l => if zmem node l then bl else dset bl w (l ++ [node]) | None => dset bl w [node] end, kill).
Definition scan_r (kill : list Z) (gl : list Z) (r : Z) : list Z := if zmem r gl || zmem r kill then gl else gl ++ [r].
Lemma scan_inst_eq p node gl bl kill i : scan_inst p node (gl, bl, kill) i =
  (fold_left (scan_r kill) (p_reads p i) gl, fst (fold_left (scan_w node) (p_writes p i) (bl, kill)), snd (fold_left (scan_w node) (p_writes p i) (bl, kill))).
Proof. unfold scan_inst. fold (scan_w node). fold (scan_r kill). destruct (fold_left (scan_w node) (p_writes p i) (bl, kill)). reflexivity. Qed.
Lemma scan_w_step node bl kill w : let s := scan_w node (bl, kill) w in
  (forall x n, In n (wr (fst s) x) <-> In n (wr bl x) \/ n = node /\ x = w) /\ (forall x, In x (snd s) <-> In x kill \/ x = w) /\ ((forall x, NoDup (wr bl x)) -> forall x, NoDup (wr (fst s) x)).
Proof.
  unfold scan_w. cbn [fst snd]. split; [|split].
  - intros x n. unfold wr. destruct (dget bl w) as [l|] eqn:El.
    + destruct (zmem node l) eqn:Zm.
      * split; [auto|]. intros [|[-> ->]]; [auto|]. rewrite El. now apply zmem_in.
      * rewrite dget_dset. destruct (Z.eqb_spec x w) as [->|N]; [|split; [auto|intros [|[_ ->]]; [auto|congruence]]]. rewrite El, in_app_iff. cbn [In]. intuition congruence.
    + rewrite dget_dset. destruct (Z.eqb_spec x w) as [->|N]; [rewrite El; cbn [In]; intuition congruence|]. split; [auto|intros [|[_ ->]]; [auto|congruence]].
  - intros x. destruct (zmem w kill) eqn:Zm; [|rewrite in_app_iff; cbn [In]; intuition congruence]. apply zmem_in in Zm. split; [auto|intros [| ->]; auto].
  - intros Nd x. unfold wr. destruct (dget bl w) as [l|] eqn:El.
    + destruct (zmem node l) eqn:Zm; [apply Nd|]. rewrite dget_dset. destruct (Z.eqb_spec x w) as [->|N]; [|apply Nd]. apply nodup_snoc; [specialize (Nd w); unfold wr in Nd; now rewrite El in Nd|]. intros I. apply zmem_in in I. congruence.
    + rewrite dget_dset. destruct (Z.eqb_spec x w) as [->|N]; [repeat constructor; auto|apply Nd].
Qed.
Lemma scan_ws_step node : forall ws bl kill, let s := fold_left (scan_w node) ws (bl, kill) in
  (forall x n, In n (wr (fst s) x) <-> In n (wr bl x) \/ n = node /\ In x ws) /\ (forall x, In x (snd s) <-> In x kill \/ In x ws) /\ ((forall x, NoDup (wr bl x)) -> forall x, NoDup (wr (fst s) x)).
Proof.
  induction ws as [|w ws IH]; intros bl kill; cbv zeta; cbn [fold_left]; [cbn [fst snd In]; intuition|].
  destruct (scan_w_step node bl kill w) as (A & B & C). destruct (scan_w node (bl, kill) w) as [bl1 k1]. cbn [fst snd] in *. destruct (IH bl1 k1) as (A' & B' & C'). split; [|split].
  - intros x n. rewrite A', A. cbn [In]. intuition.
  - intros x. rewrite B', B. cbn [In]. intuition.
  - auto.
Qed.
Lemma scan_rs_step kill : forall rs gl, (forall x, In x (fold_left (scan_r kill) rs gl) <-> In x gl \/ In x rs /\ ~ In x kill) /\ (NoDup gl -> NoDup (fold_left (scan_r kill) rs gl)).
Proof.
  induction rs as [|r rs IH]; intros gl; cbn [fold_left]; [cbn [In]; intuition|]. destruct (IH (scan_r kill gl r)) as (A & B). split.
  - intros x. rewrite A. unfold scan_r. destruct (zmem r gl) eqn:Z1; cbn [orb].
    + apply zmem_in in Z1. cbn [In]. split; [intuition|]. intros [|[[->|]]]; auto.
    + destruct (zmem r kill) eqn:Z2; [apply zmem_in in Z2; cbn [In]; split; [intuition|]; intros [|[[->|]]]; auto; contradiction|].
      assert (~ In r kill) by (intros I; apply zmem_in in I; congruence). rewrite in_app_iff. cbn [In]. split; [intros [[|[->|[]]]|[]]; auto|]. intros [|[[->|] ?]]; auto.
  - intros Nd. apply B. unfold scan_r. destruct (zmem r gl) eqn:Z1; cbn [orb]; [auto|]. destruct (zmem r kill); [auto|]. apply nodup_snoc; [auto|]. intros I. apply zmem_in in I. congruence.
Qed.
(** [x] is read before it is written, in this list of instructions *)
Definition exposed (p : sprog) (l : list nat) (x : Z) : Prop := exists i1 i i2, l = i1 ++ i :: i2 /\ In x (p_reads p i) /\ forall j, In j i1 -> ~ In x (p_writes p j).
Lemma exposed_cons p i l x : exposed p (i :: l) x <-> In x (p_reads p i) \/ ~ In x (p_writes p i) /\ exposed p l x.
Proof.
  split.
  - intros ([|j i1] & k & i2 & E & R & W); injection E as -> ->; [left; auto|right]. split; [apply W; left; auto|]. exists i1, k, i2. split; [auto|]. split; [auto|]. intros j' J. apply W. right; auto.
  - intros [R|[N (i1 & k & i2 & -> & R & W)]]; [exists [], i, l; split; [auto|]; split; [auto|]; intros j []|]. exists (i :: i1), k, i2. split; [auto|]. split; [auto|]. intros j [<-|J]; auto.
Qed.
Definition written_in (p : sprog) (l : list nat) (x : Z) : Prop := exists i, In i l /\ In x (p_writes p i).
Lemma scan_insts_step p node : forall l gl bl kill, let s := fold_left (scan_inst p node) l (gl, bl, kill) in
  (forall x, In x (fst (fst s)) <-> In x gl \/ exposed p l x /\ ~ In x kill) /\ (NoDup gl -> NoDup (fst (fst s))) /\
  (forall x n, In n (wr (snd (fst s)) x) <-> In n (wr bl x) \/ n = node /\ written_in p l x) /\ ((forall x, NoDup (wr bl x)) -> forall x, NoDup (wr (snd (fst s)) x)).
Proof.
  induction l as [|i l IH]; intros gl bl kill; cbv zeta; cbn [fold_left].
  { cbn [fst snd]. split; [|split; [auto|split; [|auto]]].
    - intros x. split; [auto|]. intros [|[(i1 & i & i2 & E & _) _]]; [auto|destruct i1; discriminate].
    - intros x n. split; [auto|]. intros [|[_ (i & [] & _)]]; auto. }
  rewrite scan_inst_eq. destruct (scan_ws_step node (p_writes p i) bl kill) as (A & B & C). destruct (scan_rs_step kill (p_reads p i) gl) as (D & F).
  destruct (fold_left (scan_w node) (p_writes p i) (bl, kill)) as [bl1 k1]. cbn [fst snd] in A, B, C |- *. destruct (IH (fold_left (scan_r kill) (p_reads p i) gl) bl1 k1) as (A' & B' & C' & D'). split; [|split; [auto|split; [|auto]]].
  - intros x. rewrite A', D, B, exposed_cons. split; [intros [[|[]]|[? ?]]; auto; right; intuition|]. intros [|[[|[N X]] K]]; [auto|auto|]. right. split; [auto|]. intros [|]; auto.
  - intros x n. rewrite C', A. unfold written_in. cbn [In]. split; [intros [[|[]]|[? (j & J & W)]]; [auto|right; eauto|right; eauto]|]. intros [|[-> (j & [<-|J] & W)]]; [auto|left; auto|right; eauto].
Qed.
Lemma scan_graph_ok p g : (forall x, In x (fst (scan_graph p g)) <-> exists n, In n (g_nodes g) /\ exposed p (p_inst p n) x) /\ NoDup (fst (scan_graph p g)) /\
  (forall x n, In n (wr (snd (scan_graph p g)) x) <-> In n (g_nodes g) /\ written_in p (p_inst p n) x) /\ (forall x, NoDup (wr (snd (scan_graph p g)) x)).
Proof.
  unfold scan_graph. set (f := fun (s : list Z * dict (list Z)) node => _).
  assert (G : forall l gl bl, NoDup gl -> (forall x, NoDup (wr bl x)) -> let s := fold_left f l (gl, bl) in
    (forall x, In x (fst s) <-> In x gl \/ exists n, In n l /\ exposed p (p_inst p n) x) /\ NoDup (fst s) /\ (forall x n, In n (wr (snd s) x) <-> In n (wr bl x) \/ In n l /\ written_in p (p_inst p n) x) /\ (forall x, NoDup (wr (snd s) x))).
  { induction l as [|n l IH]; intros gl bl Ng Nb; cbv zeta; cbn [fold_left].
    { cbn [fst snd In]. split; [intros x; split; [auto|intros [|(? & [] & _)]; auto]|]. split; [auto|]. split; [intuition|auto]. }
    unfold f at 2 4 6 8. destruct (scan_insts_step p n (p_inst p n) gl bl []) as (A & B & C & D). destruct (fold_left (scan_inst p n) (p_inst p n) (gl, bl, [])) as [[gl1 bl1] k1]. cbn [fst snd] in A, B, C, D.
    destruct (IH gl1 bl1 (B Ng) (D Nb)) as (A' & B' & C' & D'). split; [|split; [auto|split; [|auto]]].
    - intros x. rewrite A', A. cbn [In]. split; [intros [[|[]]|(m & M & X)]; [auto|right; eauto|right; eauto]|]. intros [|(m & [<-|M] & X)]; [auto|left; auto|right; eauto].
    - intros x m. rewrite C', C. cbn [In]. split; [intros [[|[-> ?]]|[? ?]]; auto|]. intros [|[[<-|] ?]]; auto. }
  destruct (G (g_nodes g) [] []) as (A & B & C & D); [constructor|intros x; constructor|]. split; [|split; [auto|split; [|auto]]].
  - intros x. rewrite A. cbn [In]. intuition.
  - intros x n. rewrite C. cbn. intuition.
Qed.

(** ** Placement *)
Definition fresh_phi (phi : Z -> phis) : Prop := forall d, NoDup (map fst (phi d)) /\ Forall (fun e => snd (fst e) = 0 /\ snd e = []) (phi d).
Lemma fresh_key phi d y : fresh_phi phi -> (In (y, 0) (map fst (phi d)) <-> In y (map (fun e => fst (fst e)) (phi d))).
Proof.
  intros F. destruct (F d) as [_ G]. rewrite Forall_forall in G. rewrite !in_map_iff. split; [intros (e & E & I); exists e; rewrite E; auto|].
  intros ([[a b] c] & E & I). exists (a, b, c). cbn [fst] in *. destruct (G _ I) as [Q _]. cbn in Q. subst. auto.
Qed.
Lemma place_one_step p x wl phi d : let s := place_one p x (wl, phi) d in
  (forall n, In n (fst s) <-> In n wl \/ n = d /\ p_end p d = false) /\ (exists m, fst s = wl ++ m) /\ (NoDup wl -> NoDup (fst s)) /\ (fresh_phi phi -> fresh_phi (snd s)) /\
  (forall b k, In k (map fst (snd s b)) <-> In k (map fst (phi b)) \/ b = d /\ p_end p d = false /\ k = (x, 0)).
Proof.
  unfold place_one. destruct (p_end p d) eqn:Ee; cbn [fst snd].
  { split; [intuition congruence|]. split; [exists []; now rewrite app_nil_r|]. split; [auto|]. split; [auto|]. intuition congruence. }
  split; [|split; [|split; [|split]]].
  - intros n. destruct (zmem d wl) eqn:Zm; [apply zmem_in in Zm; split; [auto|intros [|[-> _]]; auto]|]. rewrite in_app_iff. cbn [In]. intuition.
  - destruct (zmem d wl); [exists []; now rewrite app_nil_r|eauto].
  - intros N. destruct (zmem d wl) eqn:Zm; [auto|]. apply nodup_snoc; auto. intros I. apply zmem_in in I. congruence.
  - intros F. destruct (nmember (x, 0) (map fst (phi d))) eqn:Nm; [auto|]. assert (Ni : ~ In (x, 0) (map fst (phi d))) by (intros I; apply nmember_in in I; congruence).
    intros b. unfold upd. destruct (Z.eqb_spec b d) as [->|N]; [|apply F]. rewrite pset_fresh by auto. destruct (F d) as [F1 F2]. split; [rewrite map_app; apply nodup_snoc; auto|]. apply Forall_app. split; [auto|]. repeat constructor.
  - intros b k. destruct (nmember (x, 0) (map fst (phi d))) eqn:Nm.
    + apply nmember_in in Nm. split; [auto|]. intros [|(-> & _ & ->)]; auto.
    + assert (Ni : ~ In (x, 0) (map fst (phi d))) by (intros I; apply nmember_in in I; congruence). unfold upd. destruct (Z.eqb_spec b d) as [->|N]; [|intuition].
      rewrite pset_fresh by auto. rewrite map_app, in_app_iff. cbn [map In fst]. intuition.
Qed.
Lemma place_list_step p x : forall l wl phi, let s := fold_left (place_one p x) l (wl, phi) in
  (forall n, In n (fst s) <-> In n wl \/ In n l /\ p_end p n = false) /\ (exists m, fst s = wl ++ m) /\ (NoDup wl -> NoDup (fst s)) /\ (fresh_phi phi -> fresh_phi (snd s)) /\
  (forall b k, In k (map fst (snd s b)) <-> In k (map fst (phi b)) \/ In b l /\ p_end p b = false /\ k = (x, 0)).
Proof.
  induction l as [|d l IH]; intros wl phi; cbv zeta; cbn [fold_left].
  { cbn [fst snd In]. split; [intuition|]. split; [exists []; now rewrite app_nil_r|]. intuition. }
  destruct (place_one_step p x wl phi d) as (A & (m & B) & C & D & F). destruct (place_one p x (wl, phi) d) as [wl1 phi1]. cbn [fst snd] in A, B, C, D, F. destruct (IH wl1 phi1) as (A' & (m' & B') & C' & D' & F').
  split; [|split; [|split; [auto|split; [auto|]]]].
  - intros n. rewrite A', A. cbn [In]. split; [intros [[|[-> ?]]|[? ?]]; auto|]. intros [|[[<-|] ?]]; auto.
  - exists (m ++ m'). rewrite B', B. now rewrite app_assoc.
  - intros b k. rewrite F', F. cbn [In]. split; [intros [[|(-> & ? & ?)]|(? & ? & ?)]; auto|]. intros [|([<-|] & ? & ?)]; auto.
Qed.
Lemma firstn_snoc {A} : forall (l : list A) i x, nth_error l i = Some x -> firstn (S i) l = firstn i l ++ [x].
Proof.
  induction l as [|y l IH]; intros [|i] x E; try discriminate; cbn [nth_error] in E; [injection E as ->; reflexivity|]. change (firstn (S (S i)) (y :: l)) with (y :: firstn (S i) l). rewrite (IH i x E). reflexivity.
Qed.
(** The blocks that get a phi function for a variable first written in [wl]. *)
Lemma place_var_ok p df x : forall fuel i wl phi phi' (start : Z -> Prop) (seen : Z -> Prop), place_var fuel p df x i wl phi = Ok phi' -> fresh_phi phi ->
  (forall n, In n wl <-> start n \/ seen n) -> (forall n, seen n -> spread df (p_end p) start n /\ In (x, 0) (map fst (phi n))) ->
  (forall n d, In n (firstn i wl) -> In d (df n) -> p_end p d = false -> seen d) ->
  fresh_phi phi' /\ forall b k, In k (map fst (phi' b)) <-> In k (map fst (phi b)) \/ k = (x, 0) /\ spread df (p_end p) start b.
Proof.
  induction fuel as [|fuel IH]; intros i wl phi phi' start seen E F W S D.
  all: cbn [place_var] in E; destruct (nth_error wl i) as [n|] eqn:En; [|].
  all: try discriminate.
  3: { injection E as <-. assert (Ef : firstn i wl = wl) by (apply firstn_all2; now apply nth_error_None). rewrite Ef in D. split; [auto|]. intros b k. split; [auto|]. intros [|[-> Sp]]; [auto|].
       assert (seen b); [|now apply S]. induction Sp as [m d St I Ed|m d Sp IHs I Ed]; apply (D m); auto; apply W; auto. }
  1: { injection E as <-. assert (Ef : firstn i wl = wl) by (apply firstn_all2; now apply nth_error_None). rewrite Ef in D. split; [auto|]. intros b k. split; [auto|]. intros [|[-> Sp]]; [auto|].
       assert (seen b); [|now apply S]. induction Sp as [m d St I Ed|m d Sp IHs I Ed]; apply (D m); auto; apply W; auto. }
  destruct (place_list_step p x (df n) wl phi) as (A & (m & B) & _ & C & G). destruct (fold_left (place_one p x) (df n) (wl, phi)) as [wl1 phi1]. cbn [fst snd] in A, B, C, G.
  assert (Nw : In n wl) by (eapply nth_error_In; eauto).
  destruct (IH (Datatypes.S i) wl1 phi1 phi' start (fun d => seen d \/ In d (df n) /\ p_end p d = false) E (C F)) as (F' & K).
  - intros a. rewrite A, W. intuition.
  - intros a [Sa|[I Ed]]; [destruct (S a Sa) as [Q1 Q2]; split; [auto|apply G; auto]|]. split; [|apply G; auto]. apply W in Nw as [St|Se]; [eapply spread_one; eauto|]. eapply spread_step; [apply (S n Se)|auto|auto].
  - intros a d I Id Ed. subst wl1. assert (Li : (Datatypes.S i <= length wl)%nat) by (apply nth_error_Some; congruence).
    rewrite firstn_app in I. replace (Datatypes.S i - length wl)%nat with 0%nat in I by lia. change (firstn 0 m) with (@nil Z) in I. rewrite app_nil_r in I. rewrite (firstn_snoc wl i n En) in I. apply in_app_iff in I as [I|[<-|[]]]; [left; eauto|right; auto].
  - split; [auto|]. intros b k. rewrite K, G. split; [|intuition]. intros [[|(Ib & Eb & ->)]|[-> Sp]]; auto. right. split; [auto|]. apply W in Nw as [St|Se]; [eapply spread_one; eauto|]. eapply spread_step; [apply (S n Se)|auto|auto].
Qed.
Lemma place_var_fuel p df x (nodes : list Z) : (forall n d, In d (df n) -> In d nodes) -> forall fuel i wl phi, NoDup wl -> incl wl nodes -> (length nodes <= fuel + i)%nat -> exists phi', place_var fuel p df x i wl phi = Ok phi'.
Proof.
  intros Dn. induction fuel as [|fuel IH]; intros i wl phi Nd Il L; cbn [place_var]; destruct (nth_error wl i) as [n|] eqn:En; eauto.
  - exfalso. pose proof (NoDup_incl_length Nd Il). assert (i < length wl)%nat by (apply nth_error_Some; congruence). lia.
  - destruct (place_list_step p x (df n) wl phi) as (A & _ & C & _). destruct (fold_left (place_one p x) (df n) (wl, phi)) as [wl1 phi1]. cbn [fst snd] in A, C. apply IH; [auto| |lia].
    intros a I. apply A in I as [|[I _]]; eauto.
Qed.
Definition phi_start (p : sprog) (g : digraph) (x n : Z) : Prop := In n (g_nodes g) /\ written_in p (p_inst p n) x.
Definition global (p : sprog) (g : digraph) (x : Z) : Prop := exists n, In n (g_nodes g) /\ exposed p (p_inst p n) x.
Lemma place_ok p g df gl phi : place_phi_nodes p g df = Ok (gl, phi) -> NoDup gl /\ (forall x, In x gl <-> global p g x) /\ fresh_phi phi /\
  forall b k, In k (map fst (phi b)) <-> snd k = 0 /\ global p g (fst k) /\ spread df (p_end p) (phi_start p g (fst k)) b.
Proof.
  unfold place_phi_nodes. destruct (scan_graph_ok p g) as (A & B & C & D). destruct (scan_graph p g) as [gl0 bl]. cbn [fst snd] in A, B, C, D.
  match goal with |- context [foldM ?f gl0 ?s] => destruct (foldM f gl0 s) as [ph|] eqn:E end; cbn [bind]; [|discriminate]. intros Q. injection Q as <- <-. split; [auto|]. split; [auto|].
  assert (G : forall l s ph, fresh_phi s -> foldM (fun phi x => match dget bl x with Some wl => place_var (length (g_nodes g)) p df x 0 wl phi | None => Ok phi end) l s = Ok ph ->
    fresh_phi ph /\ forall b k, In k (map fst (ph b)) <-> In k (map fst (s b)) \/ snd k = 0 /\ In (fst k) l /\ spread df (p_end p) (phi_start p g (fst k)) b).
  { clear E ph. induction l as [|x l IH]; intros s ph F E; cbn [foldM] in E; [injection E as <-; split; [auto|]; cbn [In]; intuition|].
    match type of E with bind ?y _ = _ => destruct y as [s1|] eqn:E1 end; cbn [bind] in E; [|discriminate].
    assert (Es : place_var (length (g_nodes g)) p df x 0 (wr bl x) s = Ok s1) by (unfold wr; destruct (dget bl x); [auto|]; injection E1 as <-; destruct (length (g_nodes g)); reflexivity).
    destruct (place_var_ok p df x _ _ _ _ _ (phi_start p g x) (fun _ => False) Es F) as (F1 & K1).
    - intros n. rewrite C. unfold phi_start. intuition.
    - intros n [].
    - intros n d [].
    - destruct (IH s1 ph F1 E) as (F2 & K2). split; [auto|]. intros b [y k]. rewrite K2, K1. cbn [fst snd In]. split.
      + intros [[|[Q Sp]]|(? & ? & ?)]; auto. injection Q as -> ->. auto.
      + intros [|(-> & [<-|] & Sp)]; auto. }
  destruct (G gl0 (fun _ => []) ph) as (F & K); [intros d; split; constructor|exact E|]. split; [auto|]. intros b k. rewrite K, A. cbn [map In]. unfold global. intuition.
Qed.
Lemma place_total p g df : (forall n d, In d (df n) -> In d (g_nodes g)) -> exists r, place_phi_nodes p g df = Ok r.
Proof.
  intros Dn. unfold place_phi_nodes. destruct (scan_graph_ok p g) as (A & B & C & D). destruct (scan_graph p g) as [gl0 bl]. cbn [fst snd] in A, B, C, D.
  assert (G : forall l s, exists ph, foldM (fun phi x => match dget bl x with Some wl => place_var (length (g_nodes g)) p df x 0 wl phi | None => Ok phi end) l s = Ok ph).
  { induction l as [|x l IH]; intros s; cbn [foldM]; [eauto|]. destruct (dget bl x) as [wl|] eqn:Ex; [|cbn [bind]; apply IH].
    assert (Ew : wr bl x = wl) by (unfold wr; now rewrite Ex). destruct (place_var_fuel p df x (g_nodes g) Dn (length (g_nodes g)) 0 wl s) as (s1 & E1).
    - rewrite <- Ew. apply D.
    - intros n I. rewrite <- Ew in I. now apply C in I.
    - lia.
    - rewrite E1. cbn [bind]. apply IH. }
  destruct (G gl0 (fun _ => [])) as (ph & E). rewrite E. cbn [bind]. eauto.
Qed.
