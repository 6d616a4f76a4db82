From Verif Require Import ListLemmas BitsModel BitsSpec BitsProofs QueueProofs FlipModel FlipSpec FlipProofs.
From Coq Require Import ZifyBool ZifyNat.

(** ** Drawing distinct bits *)
Lemma draw_bits_spec lo hi amount ds : forall bits b ds', lo <= hi ->
  NoDup bits -> Forall (fun x => lo <= x <= hi) bits -> Z.of_nat (length bits) <= Z.max 0 amount ->
  draw_bits ds lo hi amount bits = Ok (b, ds') ->
  NoDup b /\ Forall (fun x => lo <= x <= hi) b /\ Z.of_nat (length b) = Z.max 0 amount.
Proof. induction ds as [|d ds IH]; intros bits b ds' Hlh N F L H; cbn [draw_bits] in H;
  destruct (Z.of_nat (length bits) <? amount) eqn:E.
  - destruct (hi <? lo); discriminate.
  - injection H as <- <-. repeat split; [exact N|exact F|lia].
  - replace (hi <? lo) with false in H by lia.
    pose proof (Z.mod_pos_bound d (hi - lo + 1) ltac:(lia)) as B. set (x := lo + d mod (hi - lo + 1)) in *.
    destruct (zmem x bits) eqn:Z0; apply IH in H; try assumption; try lia.
    + apply zmem_false in Z0. apply NoDup_app_intro; [exact N|repeat constructor; auto|].
      intros y Hy [->|[]]. contradiction.
    + apply Forall_app; split; [exact F|]. constructor; [lia|constructor].
    + rewrite app_length. cbn [length]. lia.
  - injection H as <- <-. repeat split; [exact N|exact F|lia]. Qed.

(** ** One noise pattern *)
Lemma land_pow2_zero t i : 0 <= t -> (Z.land (2 ^ t) i =? 0) = negb (Z.testbit i t).
Proof. intros Ht. rewrite Z.land_comm. destruct (Z.testbit i t) eqn:E; cbn [negb].
  - apply Z.eqb_neq. intros H. assert (Z.testbit (Z.land i (2 ^ t)) t = false) by (rewrite H; apply Z.bits_0).
    rewrite Z.land_spec, E, Z.pow2_bits_true in H0 by lia. discriminate.
  - apply Z.eqb_eq. apply Z.bits_inj'. intros n Hn. rewrite Z.land_spec, Z.bits_0, Z.pow2_bits_eqb by lia.
    destruct (Z.eqb_spec t n) as [->|]; [rewrite E; reflexivity|apply andb_false_r]. Qed.

Lemma add_bit a b x : 0 <= b -> 0 <= x -> Z.testbit a b = false ->
  Z.testbit (a + 2 ^ b) x = Z.testbit a x || (b =? x).
Proof. intros Hb Hx H. assert (L : Z.land a (2 ^ b) = 0).
  { pose proof (land_pow2_zero b a Hb) as E. rewrite H in E. rewrite Z.land_comm. apply Z.eqb_eq. exact E. }
  rewrite Z.add_nocarry_lxor by exact L. rewrite Z.lxor_spec, Z.pow2_bits_eqb by lia.
  destruct (Z.eqb_spec b x) as [->|]; [rewrite H; reflexivity|]. rewrite xorb_false_r, orb_false_r. reflexivity. Qed.

Definition picked (bits : list Z) (i m t b : Z) : Prop :=
  exists s, 0 <= s < t /\ 2 ^ s <= m /\ Z.testbit i s = true /\ nth (Z.to_nat (2 ^ s - 1)) bits (-1) = b.

Lemma pow2_ge t : 0 <= t -> t + 1 <= 2 ^ t.
Proof. intros H. pattern t. apply natlike_ind; [cbn; lia| |exact H]. intros x Hx IH.
  rewrite Z.pow_succ_r by lia. lia. Qed.

Lemma noise_loop_spec bits i m : NoDup bits -> Forall (fun x => 0 <= x) bits -> 0 <= i -> m <= Z.of_nat (length bits) ->
  forall fuel t noise, 0 <= t -> m - 2 ^ t < Z.of_nat fuel ->
  (forall b, 0 <= b -> (Z.testbit noise b = true <-> picked bits i m t b)) ->
  exists n T, noise_loop fuel bits i (2 ^ t) m noise = Ok n /\ m < 2 ^ T /\ 0 <= T /\
    forall b, 0 <= b -> (Z.testbit n b = true <-> picked bits i m T b).
Proof. intros N F Hi Hm. induction fuel as [|fuel IH]; intros t noise Ht Hf Hn; cbn [noise_loop].
  - replace (2 ^ t <=? m) with false by lia. exists noise, t. repeat split; try lia; apply Hn; lia.
  - destruct (2 ^ t <=? m) eqn:E; [|exists noise, t; repeat split; try lia; apply Hn; lia].
    pose proof (pow2_pos t Ht) as Pt.
    assert (En : nth_r bits (Z.to_nat (2 ^ t - 1)) = Ok (nth (Z.to_nat (2 ^ t - 1)) bits (-1))).
    { unfold nth_r. rewrite (nth_error_nth' bits (-1)) by lia. reflexivity. }
    rewrite En. cbn [bind]. set (b0 := nth (Z.to_nat (2 ^ t - 1)) bits (-1)) in *.
    assert (Hb0 : 0 <= b0) by (rewrite Forall_forall in F; apply F, nth_In; lia).
    replace (2 * 2 ^ t) with (2 ^ (t + 1)) by (rewrite Z.pow_add_r by lia; lia).
    apply IH; [lia|rewrite Z.pow_add_r by lia; lia|].
    assert (Pk : ~ picked bits i m t b0).
    { intros (s & Hs & Hsm & _ & Hb). assert (2 ^ s < 2 ^ t) by (apply Z.pow_lt_mono_r; lia).
      pose proof (pow2_pos s ltac:(lia)).
      assert (Z.to_nat (2 ^ s - 1) = Z.to_nat (2 ^ t - 1)); [|lia].
      apply (proj1 (NoDup_nth bits (-1)) N); [lia|lia|exact Hb]. }
    rewrite land_pow2_zero by lia. intros b Hb. destruct (Z.testbit i t) eqn:Et; cbn [negb].
    + unfold bits_on. rewrite add_bit; [|lia|lia|].
      2:{ destruct (Z.testbit noise b0) eqn:X; [|reflexivity]. apply Hn in X; [contradiction|lia]. }
      rewrite orb_true_iff, Hn, Z.eqb_eq by lia. split.
      * intros [(s & H)|H]; [exists s; intuition lia|]. exists t. repeat split; try lia; assumption.
      * intros (s & Hs & Hsm & His & Hb'). destruct (Z.eq_dec s t) as [->|]; [right; exact Hb'|left; exists s; intuition lia].
    + rewrite Hn by lia. split; [intros (s & H); exists s; intuition lia|].
      intros (s & Hs & Hsm & His & Hb'). exists s. assert (s <> t) by congruence. intuition lia. Qed.

Lemma noise_of_spec bits i : NoDup bits -> Forall (fun x => 0 <= x) bits -> 1 <= i -> Z.log2 i + 1 <= Z.of_nat (length bits) ->
  exists n, noise_of bits i = Ok n /\ forall b, 0 <= b ->
    (Z.testbit n b = true <-> exists s, 0 <= s /\ 2 ^ s <= Z.log2 i + 1 /\ Z.testbit i s = true /\
                                        nth (Z.to_nat (2 ^ s - 1)) bits (-1) = b).
Proof. intros N F Hi Hm. unfold noise_of. pose proof (Z.log2_nonneg i) as Lg.
  destruct (noise_loop_spec bits i (Z.log2 i + 1) N F ltac:(lia) Hm (Z.to_nat (Z.log2 i + 1) + 1) 0 0) as (n & T & E & HT & HT0 & H).
  - lia.
  - change (2 ^ 0) with 1. lia.
  - intros b Hb. rewrite Z.bits_0. split; [discriminate|]. intros (s & Hs & _). lia.
  - change (2 ^ 0) with 1 in E. exists n. split; [exact E|]. intros b Hb. rewrite H by lia. unfold picked. split.
    + intros (s & Hs & X). exists s. split; [lia|exact X].
    + intros (s & Hs & X & Y). exists s. split; [|auto]. split; [lia|].
      destruct (Z.lt_ge_cases s T) as [A|A]; [exact A|]. assert (2 ^ T <= 2 ^ s) by (apply Z.pow_le_mono_r; lia). lia. Qed.

(** ** Building a number from its bits *)
Lemma number_of (f : Z -> bool) n : exists i, 0 <= i < 2 ^ Z.of_nat n /\ forall k, 0 <= k < Z.of_nat n -> Z.testbit i k = f k.
Proof. induction n as [|n (i & Hi & H)].
  - exists 0. split; [cbn; lia|]. intros; lia.
  - set (b := if f (Z.of_nat n) then 1 else 0). exists (i + b * 2 ^ Z.of_nat n).
    replace (Z.of_nat (S n)) with (Z.of_nat n + 1) by lia.
    rewrite Z.pow_add_r by lia. change (2 ^ 1) with 2. split; [subst b; destruct (f (Z.of_nat n)); lia|].
    intros k Hk. rewrite testbit_split by lia. destruct (k <? Z.of_nat n) eqn:E; [apply H; lia|].
    replace k with (Z.of_nat n) by lia. rewrite Z.sub_diag. subst b. destruct (f (Z.of_nat n)); reflexivity. Qed.

(** ** Appending what is absent *)
Lemma append_absent {A} (g : A -> result Z) (h : A -> Z) l : (forall a, In a l -> g a = Ok (h a)) -> forall res, NoDup res ->
  exists out, foldM (fun res a => let* n := g a in Ok (if zmem n res then res else res ++ [n])) l res = Ok out /\
    NoDup out /\ (forall x, In x out <-> In x res \/ exists a, In a l /\ h a = x) /\
    exists tl, out = res ++ tl.
Proof. induction l as [|a l IH]; intros Hg res N; cbn [foldM].
  - exists res. split; [reflexivity|]. split; [exact N|]. split; [|exists []; rewrite app_nil_r; reflexivity].
    intros x. split; [tauto|]. intros [H|(a & [] & _)]; exact H.
  - rewrite Hg by (left; reflexivity). cbn [bind].
    set (res' := if zmem (h a) res then res else res ++ [h a]).
    assert (N' : NoDup res').
    { subst res'. destruct (zmem (h a) res) eqn:Z0; [exact N|]. apply zmem_false in Z0.
      apply NoDup_app_intro; [exact N|repeat constructor; auto|]. intros y Hy [<-|[]]. contradiction. }
    assert (I' : forall x, In x res' <-> In x res \/ h a = x).
    { intros x. subst res'. destruct (zmem (h a) res) eqn:Z0.
      - apply zmem_in in Z0. split; [tauto|]. intros [H|<-]; assumption.
      - rewrite in_app_iff. cbn [In]. tauto. }
    destruct (IH (fun b Hb => Hg b (or_intror Hb)) res' N') as (out & E & No & Io & (tl & Et)).
    exists out. split; [exact E|]. split; [exact No|]. split.
    + intros x. rewrite Io, I'. split.
      * intros [[H|H]|(b & Hb & H)]; [tauto|right; exists a; split; [left; reflexivity|exact H]|right; exists b; split; [right; exact Hb|exact H]].
      * intros [H|(b & [<-|Hb] & H)]; [tauto|tauto|right; exists b; auto].
    + assert (X : res' = res \/ res' = res ++ [h a]) by (unfold res'; destruct (zmem (h a) res); auto).
      destruct X as [X|X]; rewrite X in Et; [exists tl; exact Et|]. exists ([h a] ++ tl). rewrite app_assoc. exact Et. Qed.

(** ** corrupt_bits *)
Definition reach (bits : list Z) (amount : Z) : list Z :=
  map (fun t => nth (Z.to_nat (2 ^ t - 1)) bits (-1)) (zrange 0 (Z.log2 amount + 1)).

Lemma pow_le_log2 t a : 1 <= a -> 0 <= t -> (2 ^ t <= a <-> t <= Z.log2 a).
Proof. intros Ha Ht. split; intros H.
  - apply Z.log2_le_pow2; lia.
  - apply Z.log2_le_pow2; lia. Qed.

Lemma reach_in bits amount b : 1 <= amount ->
  (In b (reach bits amount) <-> exists t, 0 <= t /\ 2 ^ t <= amount /\ nth (Z.to_nat (2 ^ t - 1)) bits (-1) = b).
Proof. intros Ha. unfold reach. rewrite in_map_iff. split.
  - intros (t & E & Ht). apply in_zrange in Ht. exists t. split; [lia|]. split; [apply pow_le_log2; lia|exact E].
  - intros (t & Ht & Hp & E). exists t. split; [exact E|]. apply in_zrange. apply pow_le_log2 in Hp; lia. Qed.

Lemma reach_nodup bits amount : 1 <= amount -> Z.of_nat (length bits) = amount -> NoDup bits -> NoDup (reach bits amount).
Proof. intros Ha L N. unfold reach. apply nodup_map_in; [apply zrange_nodup|]. intros s t Hs Ht E.
  apply in_zrange in Hs, Ht.
  assert (Ps : 2 ^ s <= amount) by (apply pow_le_log2; lia). assert (Pt : 2 ^ t <= amount) by (apply pow_le_log2; lia).
  pose proof (pow2_pos s ltac:(lia)). pose proof (pow2_pos t ltac:(lia)).
  assert (Z.to_nat (2 ^ s - 1) = Z.to_nat (2 ^ t - 1)) by (apply (proj1 (NoDup_nth bits (-1)) N); [lia|lia|exact E]).
  apply (Z.pow_inj_r 2); lia. Qed.

Lemma log2_amount i amount : 1 <= i < 2 ^ amount -> Z.log2 i + 1 <= amount.
Proof. intros [H1 H2]. assert (Z.log2 i < amount); [|lia]. apply Z.log2_lt_pow2; lia. Qed.

Definition noise_val (bits : list Z) (i : Z) : Z := match noise_of bits i with Ok n => n | Err _ => 0 end.

Lemma corrupt_bits_spec hi lo amount e ds l ds' : 0 <= lo <= hi -> 1 <= amount ->
  corrupt_bits hi lo amount e ds = Ok (l, ds') ->
  exists B, Z.of_nat (length B) = Z.log2 amount + 1 /\ NoDup B /\ Forall (fun i => lo <= i <= hi) B /\
    hd_error l = Some e /\ NoDup l /\ (forall x, In x l <-> same_outside (fun i => In i B) e x) /\
    Z.of_nat (length l) = 2 ^ (Z.log2 amount + 1).
Proof. intros Hlh Ha H. unfold corrupt_bits in H.
  destruct (draw_bits ds lo hi amount []) as [[bits ds1]|] eqn:Ed; cbn [bind] in H; [|discriminate].
  replace (amount <? 0) with false in H by lia.
  destruct (draw_bits_spec lo hi amount ds [] bits ds1 ltac:(lia) ltac:(constructor) ltac:(constructor) ltac:(cbn; lia) Ed) as (N & F & L).
  replace (Z.max 0 amount) with amount in L by lia.
  assert (F0 : Forall (fun x => 0 <= x) bits) by (eapply Forall_impl; [|exact F]; cbn; intros; lia).
  assert (NS : forall i, 1 <= i < 2 ^ amount -> noise_of bits i = Ok (noise_val bits i) /\ forall b, 0 <= b ->
    (Z.testbit (noise_val bits i) b = true <-> exists s, 0 <= s /\ 2 ^ s <= Z.log2 i + 1 /\ Z.testbit i s = true /\
                                        nth (Z.to_nat (2 ^ s - 1)) bits (-1) = b)).
  { intros i Hi. destruct (noise_of_spec bits i N F0 ltac:(lia)) as (n & En & Hn); [rewrite L; apply log2_amount, Hi|].
    unfold noise_val. rewrite En. auto. }
  destruct (append_absent (fun i => let* noise := noise_of bits i in Ok (Z.lxor e noise)) (fun i => Z.lxor e (noise_val bits i))
              (zrange 1 (2 ^ amount))) with (res := [e]) as (out & Eo & No & Io & tl & Et).
  { intros i Hi. apply in_zrange in Hi. destruct (NS i Hi) as [-> _]. reflexivity. }
  { repeat constructor; auto. }
  assert (Eo' : foldM (fun res i => let* noise := noise_of bits i in
        let noised := Z.lxor e noise in Ok (if zmem noised res then res else res ++ [noised])) (zrange 1 (2 ^ amount)) [e] = Ok out).
  { rewrite <- Eo. generalize [e] as res. generalize (zrange 1 (2 ^ amount)).
    induction l0 as [|a l0 IH]; intros res; [reflexivity|]. cbn [foldM].
    destruct (noise_of bits a); cbn [bind]; [apply IH|reflexivity]. }
  cbv zeta in Eo', H. rewrite Eo' in H. cbn [bind] in H. injection H as <- <-.
  exists (reach bits amount).
  assert (NK : NoDup (reach bits amount)) by (apply reach_nodup; assumption).
  assert (FK : Forall (fun i => lo <= i <= hi) (reach bits amount)).
  { apply Forall_forall. intros b Hb. apply reach_in in Hb; [|exact Ha]. destruct Hb as (t & Ht & Hp & <-).
    pose proof (pow2_pos t Ht). rewrite Forall_forall in F. apply F, nth_In. lia. }
  assert (FK0 : Forall (fun i => 0 <= i) (reach bits amount)) by (eapply Forall_impl; [|exact FK]; cbn; intros; lia).
  assert (LK : Z.of_nat (length (reach bits amount)) = Z.log2 amount + 1).
  { unfold reach. rewrite map_length, zrange_length. pose proof (Z.log2_nonneg amount). lia. }
  assert (IK : forall x, In x out <-> same_outside (fun i => In i (reach bits amount)) e x).
  { intros x. rewrite Io. split.
    - intros [[<-|[]]|(i & Hi & <-)]; [apply same_outside_refl|]. apply in_zrange in Hi. destruct (NS i Hi) as [_ Hb].
      intros b Hb0 Hn. rewrite Z.lxor_spec.
      replace (Z.testbit (noise_val bits i) b) with false; [apply xorb_false_r|].
      destruct (Z.testbit (noise_val bits i) b) eqn:T; [|reflexivity]. exfalso. apply Hn.
      apply Hb in T; [|exact Hb0]. destruct T as (s & Hs & Hp & _ & E). apply reach_in; [exact Ha|].
      exists s. split; [exact Hs|]. split; [|exact E]. pose proof (log2_amount i amount Hi). lia.
    - intros S. destruct (Z.eq_dec x e) as [->|Nx]; [left; left; reflexivity|right].
      set (diff := fun t => negb (Bool.eqb (Z.testbit x (nth (Z.to_nat (2 ^ t - 1)) bits (-1)))
                                           (Z.testbit e (nth (Z.to_nat (2 ^ t - 1)) bits (-1))))).
      destruct (number_of (fun k => if 2 ^ k <=? amount then diff k else k =? amount - 1) (Z.to_nat amount)) as (i & Hi & Hbit).
      rewrite Z2Nat.id in Hi, Hbit by lia.
      (* some bit differs *)
      assert (Ex : exists t, 0 <= t /\ 2 ^ t <= amount /\ diff t = true).
      { assert (D : exists b, 0 <= b /\ In b (reach bits amount) /\ Z.testbit x b <> Z.testbit e b).
        { destruct (Exists_dec (fun b => Z.testbit x b <> Z.testbit e b) (reach bits amount)) as [Y|Y].
          - intros b. destruct (Bool.bool_dec (Z.testbit x b) (Z.testbit e b)); [right|left]; tauto.
          - apply Exists_exists in Y. destruct Y as (b & Hb & Hd). rewrite Forall_forall in FK0.
            exists b. auto.
          - exfalso. apply Nx. apply Z.bits_inj'. intros b Hb.
            destruct (in_dec Z.eq_dec b (reach bits amount)) as [I|I]; [|apply S; assumption].
            destruct (Bool.bool_dec (Z.testbit x b) (Z.testbit e b)) as [Q|Q]; [exact Q|exfalso].
            apply Y. apply Exists_exists. exists b. auto. }
        destruct D as (b & Hb & Hin & Hd). apply reach_in in Hin; [|exact Ha]. destruct Hin as (t & Ht & Hp & <-).
        exists t. split; [exact Ht|]. split; [exact Hp|]. unfold diff.
        destruct (Z.testbit x (nth (Z.to_nat (2 ^ t - 1)) bits (-1))), (Z.testbit e (nth (Z.to_nat (2 ^ t - 1)) bits (-1))); cbn; congruence. }
      destruct Ex as (t0 & Ht0 & Hp0 & Hd0).
      assert (Bt : forall t, 0 <= t -> 2 ^ t <= amount -> t < amount) by (intros t Ht Hp; pose proof (pow2_ge t Ht); lia).
      assert (Bi : forall t, 0 <= t -> 2 ^ t <= amount -> Z.testbit i t = diff t).
      { intros t Ht Hp. rewrite Hbit by (specialize (Bt t Ht Hp); lia). replace (2 ^ t <=? amount) with true by lia. reflexivity. }
      assert (i1 : 1 <= i).
      { specialize (Bi t0 Ht0 Hp0). rewrite Hd0 in Bi. destruct (Z.eq_dec i 0) as [->|]; [rewrite Z.bits_0 in Bi; discriminate|lia]. }
      (* every picked position is below the logarithm *)
      assert (Lg : forall t, 0 <= t -> 2 ^ t <= amount -> diff t = true -> 2 ^ t <= Z.log2 i + 1).
      { intros t Ht Hp Hd. destruct (Z.le_gt_cases amount 2) as [A2|A2].
        - assert (T1 : t <= 1) by (destruct (Z.le_gt_cases t 1); [assumption|]; assert (2 ^ 2 <= 2 ^ t) by (apply Z.pow_le_mono_r; lia); lia).
          assert (t <= Z.log2 i).
          { apply Z.log2_le_pow2; [lia|]. destruct (Z.le_gt_cases (2 ^ t) i); [assumption|exfalso].
            rewrite <- (Bi t Ht Hp) in Hd. rewrite Z.bits_above_log2 in Hd; [discriminate|lia|]. apply Z.log2_lt_pow2; lia. }
          assert (t = 0 \/ t = 1) as [-> | ->] by lia; [change (2 ^ 0) with 1; lia|change (2 ^ 1) with 2; lia].
        - assert (Ha1 : amount < 2 ^ (amount - 1)).
          { assert (amount - 3 + 1 <= 2 ^ (amount - 3)) by (apply pow2_ge; lia).
            replace (amount - 1) with (amount - 3 + 2) by lia. rewrite Z.pow_add_r by lia. change (2 ^ 2) with 4. lia. }
          assert (Tb : Z.testbit i (amount - 1) = true).
          { rewrite Hbit by lia. replace (2 ^ (amount - 1) <=? amount) with false by lia. apply Z.eqb_refl. }
          assert (amount - 1 <= Z.log2 i); [|lia]. destruct (Z.le_gt_cases (amount - 1) (Z.log2 i)); [assumption|exfalso].
          rewrite Z.bits_above_log2 in Tb; [discriminate|lia|lia]. }
      exists i. split; [apply in_zrange; lia|]. destruct (NS i ltac:(lia)) as [_ Hb].
      apply Z.bits_inj'. intros b Hb0. rewrite Z.lxor_spec.
      destruct (in_dec Z.eq_dec b (reach bits amount)) as [I|I].
      + apply reach_in in I; [|exact Ha]. destruct I as (t & Ht & Hp & Eb).
        assert (Dt : Z.testbit (noise_val bits i) b = diff t).
        { destruct (diff t) eqn:Dt.
          - apply Hb; [exact Hb0|]. exists t. split; [exact Ht|]. split; [apply Lg; assumption|]. split; [rewrite Bi; assumption|exact Eb].
          - destruct (Z.testbit (noise_val bits i) b) eqn:T; [|reflexivity]. exfalso. apply Hb in T; [|exact Hb0].
            destruct T as (s & Hs & Hps & Hsb & Es). pose proof (log2_amount i amount ltac:(lia)).
            assert (s = t).
            { pose proof (pow2_pos s Hs). pose proof (pow2_pos t Ht).
              assert (Z.to_nat (2 ^ s - 1) = Z.to_nat (2 ^ t - 1)) by (apply (proj1 (NoDup_nth bits (-1)) N); [lia|lia|congruence]).
              apply (Z.pow_inj_r 2); lia. }
            subst s. rewrite Bi in Hsb by assumption. congruence. }
        rewrite Dt. unfold diff. rewrite Eb. destruct (Z.testbit x b), (Z.testbit e b); reflexivity.
      + replace (Z.testbit (noise_val bits i) b) with false; [rewrite xorb_false_r; symmetry; apply S; assumption|].
        destruct (Z.testbit (noise_val bits i) b) eqn:T; [|reflexivity]. exfalso. apply I.
        apply Hb in T; [|exact Hb0]. destruct T as (s & Hs & Hp & _ & E). apply reach_in; [exact Ha|].
        exists s. split; [exact Hs|]. split; [|exact E]. pose proof (log2_amount i amount ltac:(lia)). lia. }
  split; [exact LK|]. split; [exact NK|]. split; [exact FK|]. split; [rewrite Et; reflexivity|]. split; [exact No|]. split; [exact IK|].
  rewrite <- LK, <- nat_pow2. f_equal.
  assert (Pm : Permutation.Permutation out (allflips (reach bits amount) [e])).
  { apply Permutation.NoDup_Permutation; [exact No| |].
    - apply allflips_nodup; [exact FK0|exact NK|repeat constructor; auto|]. apply Forall_forall. intros i _. apply agree_single.
    - intros x. rewrite IK, allflips_in by exact FK0. split.
      + intros S. exists e. split; [left; reflexivity|exact S].
      + intros (e0 & [<-|[]] & S). exact S. }
  apply Permutation.Permutation_length in Pm. rewrite Pm, allflips_length. cbn [length]. lia. Qed.

Lemma corrupt_bits_zero hi lo e ds : corrupt_bits hi lo 0 e ds = Ok ([e], ds).
Proof. unfold corrupt_bits. destruct ds; reflexivity. Qed.

(** More bits than the range has: no stream of draws lets the function return. *)
Lemma corrupt_bits_diverges hi lo amount e ds : lo <= hi -> hi - lo + 1 < amount ->
  corrupt_bits hi lo amount e ds = Err OutOfFuel.
Proof. intros Hlh Ha.
  assert (G : forall ds bits, NoDup bits -> Forall (fun x => lo <= x <= hi) bits -> draw_bits ds lo hi amount bits = Err OutOfFuel).
  { clear ds. induction ds as [|d ds IH]; intros bits N F; cbn [draw_bits].
    all: assert (L : Z.of_nat (length bits) <= hi - lo + 1) by
      (assert (I : incl bits (zrange lo (hi + 1))) by (intros x Hx; apply in_zrange; rewrite Forall_forall in F; specialize (F x Hx); lia);
       apply (NoDup_incl_length N) in I; rewrite zrange_length in I; lia).
    all: replace (Z.of_nat (length bits) <? amount) with true by lia; replace (hi <? lo) with false by lia.
    { reflexivity. }
    pose proof (Z.mod_pos_bound d (hi - lo + 1) ltac:(lia)) as B. set (x := lo + d mod (hi - lo + 1)) in *.
    destruct (zmem x bits) eqn:Z0; apply IH; try assumption.
    - apply zmem_false in Z0. apply NoDup_app_intro; [exact N|repeat constructor; auto|]. intros y Hy [<-|[]]. contradiction.
    - apply Forall_app; split; [exact F|]. constructor; [lia|constructor]. }
  unfold corrupt_bits. rewrite G; [reflexivity|constructor|constructor]. Qed.

(** The only way not to return is to wait for more draws. *)
Lemma corrupt_bits_total hi lo amount e ds : 0 <= lo <= hi -> 0 <= amount ->
  (exists l ds', corrupt_bits hi lo amount e ds = Ok (l, ds')) \/ corrupt_bits hi lo amount e ds = Err OutOfFuel.
Proof. intros Hlh Ha. unfold corrupt_bits.
  assert (G : forall ds bits, (exists b ds', draw_bits ds lo hi amount bits = Ok (b, ds')) \/ draw_bits ds lo hi amount bits = Err OutOfFuel).
  { clear ds. induction ds as [|d ds IH]; intros bits; cbn [draw_bits]; destruct (Z.of_nat (length bits) <? amount); eauto;
    replace (hi <? lo) with false by lia; auto. }
  destruct (G ds []) as [(bits & ds1 & Ed)|Ed]; rewrite Ed; cbn [bind]; [|right; reflexivity].
  replace (amount <? 0) with false by lia. left.
  destruct (draw_bits_spec lo hi amount ds [] bits ds1 ltac:(lia) ltac:(constructor) ltac:(constructor) ltac:(cbn; lia) Ed) as (N & F & L).
  assert (F0 : Forall (fun x => 0 <= x) bits) by (eapply Forall_impl; [|exact F]; cbn; intros; lia).
  assert (T : forall l res, (forall i, In i l -> 1 <= i < 2 ^ amount) -> exists out,
     foldM (fun res i => let* noise := noise_of bits i in
        let noised := Z.lxor e noise in Ok (if zmem noised res then res else res ++ [noised])) l res = Ok out).
  { induction l as [|a l IH]; intros res Hl; cbn [foldM]; [eauto|].
    pose proof (Hl a (or_introl eq_refl)) as Hl0.
    destruct (noise_of_spec bits a N F0) as (n & En & _); [lia|pose proof (log2_amount a amount Hl0); lia|].
    rewrite En. cbn [bind]. apply IH. intros i Hi. apply Hl. right; exact Hi. }
  destruct (T (zrange 1 (2 ^ amount)) [e]) as (out & Eo); [intros i Hi; apply in_zrange in Hi; lia|]. cbv zeta in Eo |- *. rewrite Eo. cbn [bind]. eauto. Qed.

(** ** distribute_random_amount *)
Lemma list_set_sum l : forall k v, (k < length l)%nat -> nth k l 0 = 0 -> zsum (list_set l k v) = zsum l + v.
Proof. induction l as [|a l IH]; intros [|k] v Hk E; cbn in Hk; try lia; cbn [list_set zsum fold_right].
  - cbn in E. unfold zsum. lia.
  - cbn in E. unfold zsum in IH. rewrite IH by (try lia; exact E). unfold zsum. lia. Qed.

Lemma list_set_nth_other l : forall k j v, j <> k -> nth j (list_set l k v) 0 = nth j l 0.
Proof. induction l as [|a l IH]; intros [|k] [|j] v H; cbn; auto; try lia. Qed.

Lemma list_set_forall (P : Z -> Prop) l : forall k v, Forall P l -> P v -> Forall P (list_set l k v).
Proof. induction l as [|a l IH]; intros [|k] v F Pv; cbn; inversion F; subst; constructor; auto. Qed.

Lemma randint_ok lo hi ds v ds' : randint lo hi ds = Ok (v, ds') -> lo <= v <= hi.
Proof. unfold randint. destruct (hi <? lo) eqn:E; [discriminate|]. destruct ds as [|d ds]; [discriminate|].
  intros H. injection H as <- <-. pose proof (Z.mod_pos_bound d (hi - lo + 1) ltac:(lia)). lia. Qed.

Lemma distribute_spec index : forall amount res ds r ds', 0 <= amount -> NoDup index ->
  Forall (fun k => 0 <= k < Z.of_nat (length res) /\ nth (Z.to_nat k) res 0 = 0) index ->
  Forall (fun x => 0 <= x) res ->
  distribute index amount res ds = Ok (r, ds') ->
  length r = length res /\ Forall (fun x => 0 <= x) r /\ zsum r <= zsum res + amount.
Proof. induction index as [|k index IH]; intros amount res ds r ds' Ha N Fi Fr H; cbn [distribute] in H.
  - injection H as <- <-. repeat split; [exact Fr|lia].
  - destruct (randint 0 amount ds) as [[v ds1]|] eqn:Er; cbn [bind] in H; [|discriminate].
    apply randint_ok in Er. inversion N as [|? ? Nk N']; subst. inversion Fi as [|? ? [Hk Hz] Fi']; subst.
    assert (S : zsum (list_set res (Z.to_nat k) v) = zsum res + v) by (apply list_set_sum; [lia|exact Hz]).
    destruct (amount - v <=? 0) eqn:E.
    + injection H as <- <-. rewrite list_set_length. split; [reflexivity|]. split; [apply list_set_forall; [exact Fr|lia]|lia].
    + apply IH in H; try assumption; try lia.
      * rewrite list_set_length in H. destruct H as (A & B & C). repeat split; [exact A|exact B|lia].
      * rewrite Forall_forall in Fi' |- *. intros j Hj. rewrite list_set_length. destruct (Fi' j Hj) as [A B].
        split; [exact A|]. rewrite list_set_nth_other; [exact B|]. intros X. apply Nk.
        replace k with j by lia. exact Hj.
      * apply list_set_forall; [exact Fr|lia]. Qed.

Lemma draw_index_spec ds : forall bins index k ds', draw_index ds bins index = Ok (k, ds') -> 0 <= k < bins /\ ~ In k index.
Proof. induction ds as [|d ds IH]; intros bins index k ds' H; cbn [draw_index] in H.
  - unfold randint in H. destruct (bins - 1 <? 0); discriminate.
  - destruct (randint 0 (bins - 1) (d :: ds)) as [[k1 ds1]|] eqn:Er; cbn [bind] in H; [|discriminate].
    apply randint_ok in Er. destruct (zmem k1 index) eqn:Z0; [apply IH in H; exact H|].
    injection H as <- <-. apply zmem_false in Z0. split; [lia|exact Z0]. Qed.

Lemma indices_spec bins l : forall index ds index' ds', NoDup index -> Forall (fun k => 0 <= k < bins) index ->
  foldM (fun (st : list Z * list Z) (_ : Z) => let '(index, ds) := st in
         let* (k, ds') := draw_index ds bins index in Ok (index ++ [k], ds')) l (index, ds) = Ok (index', ds') ->
  NoDup index' /\ Forall (fun k => 0 <= k < bins) index'.
Proof. induction l as [|a l IH]; intros index ds index' ds' N F H; cbn [foldM] in H.
  - injection H as <- <-. auto.
  - destruct (draw_index ds bins index) as [[k ds1]|] eqn:Ed; cbn [bind] in H; [|discriminate].
    apply draw_index_spec in Ed. destruct Ed as [Hk Hn]. apply IH in H; [exact H| |].
    + apply NoDup_app_intro; [exact N|repeat constructor; auto|]. intros y Hy [<-|[]]. contradiction.
    + apply Forall_app; split; [exact F|]. constructor; [lia|constructor]. Qed.

Lemma nth_repeat0 n k : nth k (repeat 0 n) 0 = 0.
Proof. revert k; induction n as [|n IH]; intros [|k]; cbn; auto. Qed.
Lemma zsum_repeat0 n : zsum (repeat 0 n) = 0.
Proof. induction n as [|n IH]; [reflexivity|]. unfold zsum in *. cbn [repeat fold_right]. lia. Qed.
Lemma forall_repeat0 n : Forall (fun x => 0 <= x) (repeat 0 n).
Proof. apply Forall_forall. intros x Hx. apply repeat_spec in Hx. lia. Qed.

Lemma distribute_random_amount_spec amount bins ds r ds' : 0 <= amount ->
  distribute_random_amount amount bins ds = Ok (r, ds') ->
  Z.of_nat (length r) = Z.max 0 bins /\ Forall (fun x => 0 <= x) r /\ zsum r <= amount /\ (bins = 1 -> r = [amount]).
Proof. intros Ha H. unfold distribute_random_amount in H. destruct (Z.eqb_spec bins 1) as [->|Nb].
  - injection H as <- <-. repeat split; [|unfold zsum; cbn; lia]. constructor; [exact Ha|constructor].
  - match type of H with context [foldM ?f ?l ?s] => destruct (foldM f l s) as [[index ds1]|] eqn:Ei end; cbn [bind] in H; [|discriminate].
    apply indices_spec in Ei; [|constructor|constructor]. destruct Ei as [N F].
    apply distribute_spec in H; [|exact Ha|exact N| |apply forall_repeat0].
    + rewrite repeat_length, zsum_repeat0 in H. destruct H as (A & B & C). repeat split; [lia|exact B|lia|intros; contradiction].
    + eapply Forall_impl; [|exact F]. cbn beta. intros k Hk. rewrite repeat_length, nth_repeat0. split; [lia|reflexivity]. Qed.
