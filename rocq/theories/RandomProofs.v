(** Lemmas about corrupt_instruction and corrupt_program. *)
From Verif Require Import ListLemmas FlipModel FlipSpec FlipProofs FlipProofs2 PacketModel RandomModel RandomSpec.
From Coq Require Import ZifyBool ZifyNat.

Definition near (R : Z -> Prop) (n e x : Z) : Prop :=
  exists B, Z.of_nat (length B) <= n /\ Forall R B /\ same_outside (fun i => In i B) e x.

Lemma near_refl R e n : 0 <= n -> near R n e e.
Proof. intros Hn. exists []. split; [cbn; lia|]. split; [apply Forall_nil|apply same_outside_refl]. Qed.
Lemma near_trans R n m e x y : near R n e x -> near R m x y -> near R (n + m) e y.
Proof. intros (B & L & F & S) (C & L' & F' & S'). exists (B ++ C). rewrite app_length. repeat split; [lia|apply Forall_app; auto|].
  intros i Hi N. rewrite in_app_iff in N. rewrite S' by tauto. apply S; tauto. Qed.
Lemma near_weaken (R R' : Z -> Prop) n n' e x : (forall i, R i -> R' i) -> n <= n' -> near R n e x -> near R' n' e x.
Proof. intros H Hn (B & L & F & S). exists B. repeat split; [lia|eapply Forall_impl; eauto|exact S]. Qed.
Lemma near_outside R n e x : near R n e x -> same_outside R e x.
Proof. intros (B & L & F & S) i Hi N. apply S; [exact Hi|]. intros Hin. rewrite Forall_forall in F. auto. Qed.
Lemma near_most R n e x : near R n e x -> differ_at_most n e x.
Proof. intros (B & L & F & S). exists B. auto. Qed.

Lemma log2_le a : 1 <= a -> Z.log2 a + 1 <= a.
Proof. intros H. pose proof (Z.log2_lt_lin a ltac:(lia)). lia. Qed.

Definition good_flip (R : Z -> Prop) (a : Z) (flip : Z -> list Z -> result (list Z * list Z)) : Prop :=
  forall c ds l ds', flip c ds = Ok (l, ds') -> hd_error l = Some c /\ NoDup l /\ Forall (near R a c) l.

Lemma corrupt_bits_good lo hi a : 0 <= lo <= hi -> 0 <= a -> good_flip (fun i => lo <= i <= hi) a (corrupt_bits hi lo a).
Proof. intros Hl Ha c ds l ds' H. destruct (Z.eq_dec a 0) as [->|Na].
  - rewrite corrupt_bits_zero in H. assert (l = [c]) as -> by congruence. split; [reflexivity|]. split; [constructor; [auto|constructor]|].
    constructor; [apply near_refl; lia|constructor].
  - apply corrupt_bits_spec in H; try lia. destruct H as (B & L & _ & F & Hd & N & I & _). split; [exact Hd|]. split; [exact N|].
    apply Forall_forall. intros x Hx. exists B. pose proof (log2_le a ltac:(lia)). repeat split; [lia|exact F|apply I, Hx]. Qed.

Lemma extend_flips_spec R a flip : good_flip R a flip -> forall corrupted ds l ds',
  extend_flips flip corrupted ds = Ok (l, ds') ->
  hd_error l = hd_error corrupted /\ NoDup l /\ Forall (fun x => exists c, In c corrupted /\ near R a c x) l.
Proof. intros G corrupted ds l ds' H. unfold extend_flips in H.
  assert (K : forall corrupted r ds l ds', foldM (fun st c => let '(r, ds) := st in
                     let* (cs, ds') := flip c ds in
                     Ok (r ++ filter (fun cc => negb (zmem cc r)) cs, ds')) corrupted (r, ds) = Ok (l, ds') ->
     NoDup r -> hd_error l = match hd_error r with Some x => Some x | None => hd_error corrupted end /\ NoDup l /\
     Forall (fun x => In x r \/ exists c, In c corrupted /\ near R a c x) l).
  { clear - G. induction corrupted as [|c corrupted IH]; intros r ds l ds' H N; cbn [foldM] in H.
    - assert (l = r) as -> by congruence. split; [cbn [hd_error]; destruct r; reflexivity|]. split; [exact N|]. apply Forall_forall; auto.
    - destruct (flip c ds) as [[cs ds1]|] eqn:E; cbn [bind] in H; [|discriminate].
      destruct (G _ _ _ _ E) as (Hd & Nc & F). apply IH in H.
      + destruct H as (A & B & C). split; [|split; [exact B|]].
        * rewrite A. destruct r as [|x r]; cbn [app hd_error]; [|reflexivity].
          destruct cs as [|y cs]; [discriminate|]. cbn in Hd. cbn. exact Hd.
        * eapply Forall_impl; [|exact C]. cbn beta. intros x [Hx|(c' & Hc & Hn)]; [|right; exists c'; cbn [In]; auto].
          apply in_app_iff in Hx. destruct Hx as [Hx|Hx]; [auto|]. apply filter_In in Hx. right. exists c. split; [left; reflexivity|].
          rewrite Forall_forall in F. apply F, Hx.
      + apply NoDup_app_intro; [exact N|apply NoDup_filter, Nc|]. intros x Hx Hf. apply filter_In in Hf. destruct Hf as [_ Hf].
        apply negb_true_iff, zmem_false in Hf. contradiction. }
  apply K in H; [|constructor]. destruct H as (A & B & C). split; [exact A|]. split; [exact B|].
  eapply Forall_impl; [|exact C]. cbn. intros x [[]|Hx]; exact Hx. Qed.

Lemma dkeys_dset_present {A} (d : dict A) k v a : dget d k = Some a -> dkeys (dset d k v) = dkeys d.
Proof. induction d as [|[k' a'] d IH]; cbn; [discriminate|]. destruct (Z.eqb_spec k k') as [->|N]; cbn; [reflexivity|]. intros H. f_equal. apply IH, H. Qed.

Lemma append_defined (undefined : Z -> Z -> bool) orig address cs : forall prog prog',
  foldM (fun (p : program) c =>
        let* n := caps c (i_addr orig) in
        if undefined c (i_addr orig) then Ok p
        else let* l := dget_r p address in Ok (dset p address (l ++ [n]))) cs prog = Ok prog' ->
  prog' = prog /\ filter (fun c => negb (undefined c (i_addr orig))) cs = [] \/
  exists l, dget prog address = Some l /\
    dget prog' address = Some (l ++ map (fun c => mkInst c (i_addr orig)) (filter (fun c => negb (undefined c (i_addr orig))) cs)) /\
    (forall a, a <> address -> dget prog' a = dget prog a) /\ dkeys prog' = dkeys prog.
Proof. induction cs as [|c cs IH]; intros prog prog' H; cbn [foldM] in H.
  - left. split; [congruence|reflexivity].
  - unfold caps in H. destruct ((0 <=? c) && (c <? 2 ^ 32)); cbn [bind] in H; [|discriminate].
    cbn [filter]. destruct (undefined c (i_addr orig)); cbn [bind negb] in H |- *; [apply IH, H|].
    unfold dget_r in H. destruct (dget prog address) as [l|] eqn:E; cbn [bind] in H; [|discriminate].
    right. exists l. split; [reflexivity|]. apply IH in H. destruct H as [[-> Hn]|(l' & E' & D & O & K)].
    + rewrite Hn. cbn [map]. split; [apply dget_dset_same|]. split; [intros; apply dget_dset_other; auto|eapply dkeys_dset_present; eauto].
    + rewrite dget_dset_same in E'. assert (l' = l ++ [mkInst c (i_addr orig)]) as -> by congruence. rewrite D. cbn [map]. rewrite <- app_assoc.
      split; [reflexivity|]. split; [intros a Ha; rewrite O by exact Ha; apply dget_dset_other; auto|].
      rewrite K. eapply dkeys_dset_present; eauto. Qed.

(** The list of encodings that corrupt_instruction builds. *)
Lemma zsum_nth amounts : Forall (fun x => 0 <= x) amounts -> forall n a, nth_error amounts n = Some a -> 0 <= a <= zsum amounts.
Proof. induction 1 as [|x l Hx F IH]; intros [|n] a E; cbn in E; try discriminate; unfold zsum in *; cbn [fold_right].
  - assert (a = x) as -> by congruence. assert (0 <= fold_right Z.add 0 l); [|lia]. clear - F. induction F; cbn; lia.
  - apply IH in E. lia. Qed.

Lemma two_nth a b c : 0 <= a -> 0 <= b -> zsum [a; b] <= c -> a + b <= c.
Proof. unfold zsum; cbn; lia. Qed.

Lemma corrupt_instruction_spec undefined prog orig address c r o amount ds prog' ds' : 0 <= amount ->
  corrupt_instruction undefined prog orig address c r o amount ds = Ok (prog', ds') ->
  exists cs, hd_error cs = Some (i_enc orig) /\ NoDup cs /\ Forall (near (requested c r o) amount (i_enc orig)) cs /\
    exists l, dget prog address = Some l /\
    dget prog' address = Some (l ++ map (fun c => mkInst c (i_addr orig)) (filter (fun c => negb (undefined c (i_addr orig))) (tl cs))) /\
    (forall a, a <> address -> dget prog' a = dget prog a) /\ dkeys prog' = dkeys prog.
Proof. intros Ha H. unfold corrupt_instruction in H. cbv zeta in H.
  set (e := i_enc orig) in *.
  set (bins := if o then (if r then (if c then 1 else 0) + 1 else if c then 1 else 0) + 1 else if r then (if c then 1 else 0) + 1 else if c then 1 else 0) in *.
  destruct (distribute_random_amount amount bins ds) as [[amounts ds1]|] eqn:Ed; cbn [bind] in H; [|discriminate].
  apply distribute_random_amount_spec in Ed; [|exact Ha]. destruct Ed as (L & F & S & _).
  assert (C1 : exists cs1 b1 d1 n1,
     (if c then let* a := nth_r amounts (Z.to_nat (bins - 1)) in let* (cs, ds') := corrupt_conditional a e ds1 in Ok (cs, bins - 1, ds') else Ok ([e], bins, ds1)) = Ok (cs1, b1, d1)
     /\ b1 = (if o then (if r then 1 else 0) + 1 else if r then 1 else 0) /\
     n1 = (if c then nth (Z.to_nat (bins - 1)) amounts 0 else 0) /\ 0 <= n1 /\
     hd_error cs1 = Some e /\ NoDup cs1 /\ Forall (near (requested c r o) n1 e) cs1).
  { destruct c.
    - destruct (nth_r amounts (Z.to_nat (bins - 1))) as [a|] eqn:En; cbn [bind] in H; [|discriminate].
      unfold nth_r in En. destruct (nth_error amounts (Z.to_nat (bins - 1))) as [a'|] eqn:En'; [|discriminate]. assert (a' = a) as -> by congruence.
      destruct (corrupt_conditional a e ds1) as [[cs d1]|] eqn:Ec; cbn [bind] in H; [|discriminate].
      destruct (zsum_nth _ F _ _ En') as [A1 A2].
      pose proof Ec as Ec0. apply (corrupt_bits_good 28 31 a) in Ec; try lia. destruct Ec as (Hd & N & Fn).
      exists cs, (bins - 1), d1, a. cbn [bind]. split; [rewrite Ec0; reflexivity|]. split; [unfold bins; destruct r, o; reflexivity|].
      split; [symmetry; apply nth_error_nth, En'|]. split; [lia|]. split; [exact Hd|]. split; [exact N|].
      eapply Forall_impl; [|exact Fn]. intros x. apply near_weaken; [intros; left; auto|lia].
    - exists [e], bins, ds1, 0. split; [reflexivity|]. split; [unfold bins; destruct r, o; reflexivity|]. split; [reflexivity|]. split; [lia|].
      split; [reflexivity|]. split; [constructor; [auto|constructor]|]. constructor; [apply near_refl; lia|constructor]. }
  destruct C1 as (cs1 & b1 & d1 & n1 & E1 & Hb1 & Hn1 & P1 & Hd1 & N1 & F1). rewrite E1 in H. cbn [bind] in H.
  assert (C2 : exists cs2 b2 d2 n2,
     (if r then let* a := nth_r amounts (Z.to_nat (b1 - 1)) in let* (cs, ds') := extend_flips (corrupt_registers a) cs1 d1 in Ok (cs, b1 - 1, ds') else Ok (cs1, b1, d1)) = Ok (cs2, b2, d2)
     /\ b2 = (if o then 1 else 0) /\
     n2 = (if r then nth (Z.to_nat (b1 - 1)) amounts 0 else 0) /\ 0 <= n2 /\
     hd_error cs2 = Some e /\ NoDup cs2 /\ Forall (near (requested c r o) (n1 + n2) e) cs2).
  { destruct r.
    - destruct (nth_r amounts (Z.to_nat (b1 - 1))) as [a|] eqn:En; cbn [bind] in H; [|discriminate].
      unfold nth_r in En. destruct (nth_error amounts (Z.to_nat (b1 - 1))) as [a'|] eqn:En'; [|discriminate]. assert (a' = a) as -> by congruence.
      destruct (extend_flips (corrupt_registers a) cs1 d1) as [[cs d2]|] eqn:Ec; cbn [bind] in H; [|discriminate].
      destruct (zsum_nth _ F _ _ En') as [A1 A2].
      pose proof Ec as Ec0. apply (extend_flips_spec _ _ _ (corrupt_bits_good 0 10 a ltac:(lia) A1)) in Ec. destruct Ec as (Hd & N & Fn).
      exists cs, (b1 - 1), d2, a. cbn [bind]. split; [rewrite Ec0; reflexivity|]. split; [rewrite Hb1; destruct o; reflexivity|].
      split; [symmetry; apply nth_error_nth, En'|]. split; [lia|]. split; [congruence|]. split; [exact N|].
      eapply Forall_impl; [|exact Fn]. cbn beta. intros x (y & Hy & Hx). rewrite Forall_forall in F1.
      eapply near_trans; [apply F1, Hy|]. eapply near_weaken; [|apply Z.le_refl|exact Hx]. intros; right; left; auto.
    - exists cs1, b1, d1, 0. split; [reflexivity|]. split; [rewrite Hb1; destruct o; reflexivity|]. split; [reflexivity|]. split; [lia|].
      split; [exact Hd1|]. split; [exact N1|]. rewrite Z.add_0_r. exact F1. }
  destruct C2 as (cs2 & b2 & d2 & n2 & E2 & Hb2 & Hn2 & P2 & Hd2 & N2 & F2). rewrite E2 in H. cbn [bind] in H.
  assert (C3 : exists cs3 b3 d3 n3,
     (if o then let* a := nth_r amounts (Z.to_nat (b2 - 1)) in let* (cs, ds') := extend_flips (corrupt_opcode a) cs2 d2 in Ok (cs, b2 - 1, ds') else Ok (cs2, b2, d2)) = Ok (cs3, b3, d3)
     /\ n3 = (if o then nth (Z.to_nat (b2 - 1)) amounts 0 else 0) /\ 0 <= n3 /\
     hd_error cs3 = Some e /\ NoDup cs3 /\ Forall (near (requested c r o) (n1 + n2 + n3) e) cs3).
  { destruct o.
    - destruct (nth_r amounts (Z.to_nat (b2 - 1))) as [a|] eqn:En; cbn [bind] in H; [|discriminate].
      unfold nth_r in En. destruct (nth_error amounts (Z.to_nat (b2 - 1))) as [a'|] eqn:En'; [|discriminate]. assert (a' = a) as -> by congruence.
      destruct (extend_flips (corrupt_opcode a) cs2 d2) as [[cs d3]|] eqn:Ec; cbn [bind] in H; [|discriminate].
      destruct (zsum_nth _ F _ _ En') as [A1 A2].
      pose proof Ec as Ec0. apply (extend_flips_spec _ _ _ (corrupt_bits_good 20 27 a ltac:(lia) A1)) in Ec. destruct Ec as (Hd & N & Fn).
      exists cs, (b2 - 1), d3, a. cbn [bind]. split; [rewrite Ec0; reflexivity|].
      split; [symmetry; apply nth_error_nth, En'|]. split; [lia|]. split; [congruence|]. split; [exact N|].
      eapply Forall_impl; [|exact Fn]. cbn beta. intros x (y & Hy & Hx). rewrite Forall_forall in F2.
      eapply near_trans; [apply F2, Hy|]. eapply near_weaken; [|apply Z.le_refl|exact Hx]. intros; right; right; auto.
    - exists cs2, b2, d2, 0. split; [reflexivity|]. split; [reflexivity|]. split; [lia|].
      split; [exact Hd2|]. split; [exact N2|]. rewrite Z.add_0_r. exact F2. }
  destruct C3 as (cs3 & b3 & d3 & n3 & E3 & Hn3 & P3 & Hd3 & N3 & F3). rewrite E3 in H. cbn [bind] in H.
  assert (T : n1 + n2 + n3 <= amount).
  { assert (P : forall n, 0 <= nth n amounts 0) by (intros n; destruct (nth_in_or_default n amounts 0) as [I| ->]; [rewrite Forall_forall in F; auto|lia]).
    clear - L S Ha Hn1 Hn2 Hn3 Hb1 Hb2 P. subst bins. destruct c, r, o; subst;
    (destruct amounts as [|x0 [|x1 [|x2 [|x3 amounts]]]]; cbn [length] in L; try lia);
    pose proof (P 0%nat); pose proof (P 1%nat); pose proof (P 2%nat); cbn [nth] in *; unfold zsum in S; cbn [fold_right] in S; cbn; try change (Pos.to_nat 2) with 2%nat; try change (Pos.to_nat 1) with 1%nat; cbn; lia. }
  match type of H with context [foldM ?f ?l ?s] => destruct (foldM f l s) as [p1|] eqn:Ef end; cbn [bind] in H; [|discriminate].
  unfold dget_r in H. destruct (dget p1 address) as [l1|] eqn:El; cbn [bind] in H; [|discriminate].
  assert (p1 = prog') as -> by congruence.
  exists cs3. split; [exact Hd3|]. split; [exact N3|]. split.
  { eapply Forall_impl; [|exact F3]. intros x. apply near_weaken; [auto|exact T]. }
  apply append_defined in Ef. destruct Ef as [[-> Hn]|Ef]; [|exact Ef].
  exists l1. rewrite Hn, app_nil_r. auto. Qed.

(** *** corrupt_program *)

Lemma add_encodings_spec i cs : forall l, hd_error l = Some i ->
  forall l', add_encodings cs l = Ok l' -> (forall c, In c cs -> ~ In c (map i_enc l)) -> NoDup cs ->
  l' = l ++ map (fun c => mkInst c (i_addr i)) cs /\ Forall (fun c => 0 <= c < 2 ^ 32) cs.
Proof. induction cs as [|c cs IH]; intros l Hd l' H Hn N; unfold add_encodings in H; cbn [foldM] in H.
  - split; [rewrite app_nil_r; congruence|constructor].
  - destruct (existsb (fun i0 => i_enc i0 =? c) l) eqn:E.
    { exfalso. apply existsb_exists in E. destruct E as (j & Hj & Ej). apply (Hn c); [left; reflexivity|]. apply in_map_iff. exists j. split; [lia|exact Hj]. }
    destruct l as [|i' l]; [discriminate|]. assert (i' = i) as -> by (cbn in Hd; congruence). cbn [nth_r nth_error bind] in H.
    unfold nth_r in H; cbn [nth_error bind] in H. unfold caps in H.
    destruct ((0 <=? c) && (c <? 2 ^ 32)) eqn:Ec; cbn [bind] in H; [|discriminate].
    inversion N as [|? ? Nc N']; subst. specialize (IH ((i :: l) ++ [mkInst c (i_addr i)]) eq_refl l' H).
    destruct IH as [IHa IHb]; [|exact N'|].
    + intros c' Hc' Hin. rewrite map_app, in_app_iff in Hin. destruct Hin as [Hin|[Hin|[]]].
      * apply (Hn c'); [right; exact Hc'|exact Hin].
      * cbn in Hin. subst. contradiction.
    + split; [rewrite IHa, <- app_assoc; reflexivity|]. constructor; [lia|exact IHb]. Qed.

Lemma add_encodings_skip i l cs : forall l', hd_error l = Some i -> add_encodings (i_enc i :: cs) l = Ok l' -> add_encodings cs l = Ok l'.
Proof. intros l' Hd H. unfold add_encodings in H; cbn [foldM] in H. destruct l as [|i' l]; [discriminate|]. assert (i' = i) as -> by (cbn in Hd; congruence).
  cbn [existsb] in H. rewrite Z.eqb_refl in H. exact H. Qed.

Lemma entry_ok maxa i a ds cs ds' l : 1 <= a <= maxa ->
  corrupt_bits 31 0 a (i_enc i) ds = Ok (cs, ds') -> add_encodings cs [i] = Ok l -> corrupted_entry maxa i l.
Proof. intros Ha H Hl.
  destruct (corrupt_bits_good 0 31 a ltac:(lia) ltac:(lia) _ _ _ _ H) as (Hd & N & F).
  apply corrupt_bits_spec in H; try lia. destruct H as (_ & _ & _ & _ & _ & _ & _ & L).
  destruct cs as [|c cs]; [discriminate|]. assert (c = i_enc i) as -> by (cbn in Hd; congruence).
  apply (add_encodings_skip i) in Hl; [|reflexivity]. inversion N as [|? ? Ni N']; subst.
  apply (add_encodings_spec i) in Hl; [|reflexivity| |exact N'].
  - destruct Hl as [-> Fw]. exists (map (fun c => mkInst c (i_addr i)) cs). split; [reflexivity|]. split.
    { intros E. apply map_eq_nil in E. subst. cbn [length] in L. assert (2 ^ 1 <= 2 ^ (Z.log2 a + 1)) by (apply Z.pow_le_mono_r; [lia|pose proof (Z.log2_nonneg a); lia]). lia. }
    assert (M : map i_enc (map (fun c => mkInst c (i_addr i)) cs) = cs) by (rewrite map_map; cbn; apply map_id).
    split; [cbn [app map]; rewrite M; exact N|].
    apply Forall_forall. intros j Hj. apply in_map_iff in Hj. destruct Hj as (c & <- & Hc). cbn [i_addr i_enc].
    rewrite Forall_forall in Fw, F. split; [reflexivity|]. split; [auto|].
    eapply near_most, near_weaken; [|apply (proj2 Ha)|apply F; right; exact Hc]. intros k Hk; exact Hk.
  - intros c Hc [E|[]]. subst. contradiction. Qed.

Lemma corrupted_at_refl maxa prog : corrupted_at maxa prog prog [].
Proof. split; [reflexivity|]. split; [constructor|]. split; [intros a []|reflexivity]. Qed.

Lemma corrupt_loop_spec fuel : forall count maxa base prog ds prog' ds', 1 <= maxa ->
  corrupt_program_loop fuel count maxa base prog ds = Ok (prog', ds') ->
  exists changed, corrupted_at maxa prog prog' changed /\ Z.of_nat (length changed) = Z.max 0 count /\
    Forall (fun a => exists k, 0 <= k <= Z.of_nat (length prog) /\ a = base + 4 * k) changed.
Proof. induction fuel as [|fuel IH]; intros count maxa base prog ds prog' ds' Hm H; cbn [corrupt_program_loop] in H.
  { destruct (Z.gtb_spec count 0); [discriminate|]. assert (prog' = prog) as -> by congruence. exists [].
    split; [apply corrupted_at_refl|]. split; [cbn; lia|constructor]. }
  destruct (Z.gtb_spec count 0) as [Hc|Hc].
  2:{ assert (prog' = prog) as -> by congruence. exists []. split; [apply corrupted_at_refl|]. split; [cbn; lia|constructor]. }
  destruct (randint 0 (Z.of_nat (length prog)) ds) as [[k ds1]|] eqn:Ek; cbn [bind] in H; [|discriminate].
  apply randint_ok in Ek.
  assert (Skip : corrupt_program_loop fuel count maxa base prog ds1 = Ok (prog', ds') ->
    exists changed, corrupted_at maxa prog prog' changed /\ Z.of_nat (length changed) = Z.max 0 count /\
    Forall (fun a => exists k, 0 <= k <= Z.of_nat (length prog) /\ a = base + 4 * k) changed) by (apply IH; exact Hm).
  destruct (dget prog (k * 4 + base)) as [[|i [|i2 l2]]|] eqn:Eg; try (apply Skip; exact H). clear Skip.
  set (p := k * 4 + base) in *.
  destruct (randint 1 maxa ds1) as [[a ds2]|] eqn:Ea; cbn [bind] in H; [|discriminate]. apply randint_ok in Ea.
  destruct (corrupt_bits 31 0 a (i_enc i) ds2) as [[cs ds3]|] eqn:Ec; cbn [bind] in H; [|discriminate].
  destruct (add_encodings cs [i]) as [l|] eqn:El; cbn [bind] in H; [|discriminate].
  pose proof (entry_ok maxa i a ds2 cs ds3 l Ea Ec El) as En.
  apply IH in H; [|exact Hm]. destruct H as (changed & (K & N & I & O) & Len & Fr).
  assert (Np : ~ In p changed).
  { intros Hp. destruct (I p Hp) as (i' & l' & E1 & _). rewrite dget_dset_same in E1. destruct En as (new & -> & Hn & _).
    destruct new; [contradiction|discriminate]. }
  exists (p :: changed). split; [split; [|split; [|split]]|split].
  - rewrite K. eapply dkeys_dset_present; eauto.
  - constructor; assumption.
  - intros b [<-|Hb].
    + exists i, l. split; [exact Eg|]. split; [|exact En]. rewrite O by exact Np. apply dget_dset_same.
    + destruct (I b Hb) as (i' & l' & E1 & E2 & E3). exists i', l'. split; [|auto]. rewrite dget_dset_other in E1; [exact E1|]. intros ->. contradiction.
  - intros b Hb. rewrite O by (intros Hb'; apply Hb; right; exact Hb'). apply dget_dset_other. intros ->. apply Hb. left; reflexivity.
  - cbn [length]. lia.
  - constructor; [exists k; subst p; lia|]. eapply Forall_impl; [|exact Fr]. cbn beta. intros b (k' & Hk' & ->). exists k'. split; [|reflexivity].
    assert (length (dset prog p l) = length prog); [|lia]. rewrite <- !(map_length fst). change (length (dkeys (dset prog p l)) = length (dkeys prog)).
    f_equal. eapply dkeys_dset_present; eauto. Qed.

Lemma min_address_spec prog : (forall k, In k (dkeys prog) -> k <= 2 ^ 63 - 1) -> prog <> [] ->
  In (min_address prog) (dkeys prog) /\ forall k, In k (dkeys prog) -> min_address prog <= k.
Proof. intros Hb Hne. unfold min_address.
  assert (G : forall l m, (forall k, In k l -> fold_left (fun m k => if m >? k then k else m) l m <= k) /\
      fold_left (fun m k => if m >? k then k else m) l m <= m /\
      (In (fold_left (fun m k => if m >? k then k else m) l m) l \/ fold_left (fun m k => if m >? k then k else m) l m = m)).
  { induction l as [|x l IH]; intros m; cbn [fold_left]; [split; [intros k []|split; [lia|right; reflexivity]]|].
    destruct (IH (if m >? x then x else m)) as (A & B & C). destruct (Z.gtb_spec m x) as [Hx|Hx].
    - split; [intros k [<-|Hk]; auto|]. split; [lia|]. left. destruct C as [C| ->]; [right; exact C|left; reflexivity].
    - split; [intros k [<-|Hk]; [lia|auto]|]. split; [lia|]. destruct C as [C| ->]; [left; right; exact C|right; reflexivity]. }
  destruct (G (dkeys prog) (2 ^ 63 - 1)) as (A & B & C). split; [|exact A]. destruct C as [C|C]; [exact C|].
  destruct prog as [|[k a] prog]; [contradiction|]. specialize (A k (or_introl eq_refl)). specialize (Hb k (or_introl eq_refl)).
  left. cbn [fst]. lia. Qed.
