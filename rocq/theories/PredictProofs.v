From Verif Require Import ListLemmas BitsSpec QueueModel InterleaveModel InterleaveSpec InterleaveProofs BlaumModel BlaumProofs
  FlipProofs PacketModel PacketSpec.
From Coq Require Import ZifyBool ZifyNat.

Lemma error_eqb_spec a b : error_eqb a b = true <-> a = b.
Proof. destruct a as [[a1 a2] a3], b as [[b1 b2] b3]. unfold error_eqb, e_word, e_bit, e_len. cbn [fst snd].
  destruct a3 as [x|], b3 as [y|]; rewrite ?andb_true_iff, ?Z.eqb_eq; split; intros H; try congruence; try (intuition congruence). Qed.

Lemma add_error_in errors t x : In x (add_error errors t) <-> In x errors \/ x = t.
Proof. unfold add_error. destruct (existsb (error_eqb t) errors) eqn:E.
  - apply existsb_exists in E. destruct E as (y & Hy & E). apply error_eqb_spec in E. subst y.
    split; [tauto|]. intros [H| ->]; assumption.
  - rewrite in_app_iff. cbn [In]. intuition congruence. Qed.

Lemma add_error_nodup errors t : NoDup errors -> NoDup (add_error errors t).
Proof. intros N. unfold add_error. destruct (existsb (error_eqb t) errors) eqn:E; [exact N|].
  apply NoDup_app_intro; [exact N|repeat constructor; auto|]. intros y Hy [<-|[]].
  assert (X : existsb (error_eqb t) errors = true) by (apply existsb_exists; exists t; split; [exact Hy|apply error_eqb_spec; reflexivity]).
  congruence. Qed.

(** Entries produced for the chunk that starts at bit [b]. *)
Definition entries (w b : Z) : list error :=
  if b mod 32 + w >=? 32 then [(b / 32, b mod 32, Some (32 - 1 - b mod 32)); (b / 32 + 1, 0, Some (w - 32 + 1 + b mod 32))]
  else [(b / 32, b mod 32, None)].

Lemma predict_bit_in w total b errors x :
  In x (predict_bit w total b errors) <-> In x errors \/ (b < total /\ In x (entries w b)).
Proof. unfold predict_bit, entries. destruct (b <? total) eqn:E; [|split; [tauto|intros [H|[H _]]; [exact H|lia]]].
  destruct (b mod 32 + w >=? 32); rewrite ?add_error_in; cbn [In]; intuition (try congruence; lia). Qed.

Lemma predict_bit_nodup w total b errors : NoDup errors -> NoDup (predict_bit w total b errors).
Proof. intros N. unfold predict_bit. destruct (b <? total); [|exact N].
  destruct (b mod 32 + w >=? 32); repeat apply add_error_nodup; exact N. Qed.

Lemma predict_round_spec w jump total bs errors : exists errors',
  predict_round w jump total (bs, errors) = (map (fun b => b + jump) bs, errors') /\
  (NoDup errors -> NoDup errors') /\
  (forall x, In x errors' <-> In x errors \/ exists b, In b bs /\ b < total /\ In x (entries w b)).
Proof. unfold predict_round. cbn [fst snd].
  assert (G : forall bs pre errors, exists errors',
    fold_left (fun acc b => (fst acc ++ [b + jump], predict_bit w total b (snd acc))) bs (pre, errors) =
      (pre ++ map (fun b => b + jump) bs, errors') /\ (NoDup errors -> NoDup errors') /\
    (forall x, In x errors' <-> In x errors \/ exists b, In b bs /\ b < total /\ In x (entries w b))).
  { clear bs errors. induction bs as [|b bs IH]; intros pre errors; cbn [fold_left fst snd map].
    - exists errors. rewrite app_nil_r. split; [reflexivity|]. split; [auto|]. intros x. split; [tauto|].
      intros [H|(b & [] & _)]; exact H.
    - destruct (IH (pre ++ [b + jump]) (predict_bit w total b errors)) as (errors' & E & N & I).
      exists errors'. rewrite E, <- app_assoc. split; [reflexivity|]. split; [intros H; apply N, predict_bit_nodup, H|].
      intros x. rewrite I, predict_bit_in. split.
      + intros [[H|[H1 H2]]|(b' & Hb & H)]; [tauto|right; exists b; cbn [In]; auto|right; exists b'; cbn [In]; auto].
      + intros [H|(b' & [<-|Hb] & H)]; [tauto|tauto|right; exists b'; auto]. }
  apply (G bs [] errors). Qed.

Lemma predict_loop_spec w jump total : 0 < jump -> forall fuel b0 bs errors, total - b0 < Z.of_nat fuel * jump \/ total <= b0 ->
  NoDup errors ->
  exists errors', predict_loop fuel w jump total (b0 :: bs, errors) = Ok errors' /\ NoDup errors' /\
    forall x, In x errors' <-> In x errors \/
       exists b r, In b (b0 :: bs) /\ 0 <= r /\ b0 + r * jump < total /\ b + r * jump < total /\ In x (entries w (b + r * jump)).
Proof. intros Hj. induction fuel as [|fuel IH]; intros b0 bs errors Hf N; cbn [predict_loop fst snd].
  all: change (nth_r (b0 :: bs) 0) with (Ok b0); cbn [bind].
  - replace (b0 <? total) with false by lia. exists errors. split; [reflexivity|]. split; [exact N|]. intros x. split; [tauto|].
    intros [H|(b & r & Hb & Hr & H & _)]; [exact H|nia].
  - destruct (b0 <? total) eqn:E.
    2:{ exists errors. split; [reflexivity|]. split; [exact N|]. intros x. split; [tauto|].
        intros [H|(b & r & Hb & Hr & H & _)]; [exact H|nia]. }
    destruct (predict_round_spec w jump total (b0 :: bs) errors) as (e1 & E1 & N1 & I1). rewrite E1. cbn [map].
    destruct (IH (b0 + jump) (map (fun b => b + jump) bs) e1) as (e2 & E2 & N2 & I2); [nia|auto|].
    exists e2. split; [exact E2|]. split; [exact N2|]. intros x. rewrite I2, I1. split.
    + intros [[H|(b & Hb & Hlt & H)]|(b & r & Hb & Hr & H0 & H1 & H2)]; [tauto| |].
      * right. exists b, 0. rewrite !Z.mul_0_l, !Z.add_0_r. split; [exact Hb|]. split; [lia|]. split; [lia|]. auto.
      * change (b0 + jump :: map (fun b => b + jump) bs) with (map (fun b => b + jump) (b0 :: bs)) in Hb.
        apply in_map_iff in Hb. destruct Hb as (b' & <- & Hb). right. exists b', (r + 1).
        replace (b' + (r + 1) * jump) with (b' + jump + r * jump) by lia.
        split; [exact Hb|]. split; [lia|]. split; [lia|]. auto.
    + intros [H|(b & r & Hb & Hr & H0 & H1 & H2)]; [tauto|]. destruct (Z.eq_dec r 0) as [->|Nr].
      * rewrite Z.mul_0_l, Z.add_0_r in *. left. right. exists b. auto.
      * right. exists (b + jump), (r - 1).
        replace (b + jump + (r - 1) * jump) with (b + r * jump) by lia.
        split; [|split; [lia|split; [lia|auto]]].
        change (b0 + jump :: map (fun b => b + jump) bs) with (map (fun b => b + jump) (b0 :: bs)).
        apply in_map_iff. exists b; auto. Qed.

Lemma starts_spec order w lost : incl lost order ->
  exists idx, mapM (fun p => let* i := zindex order p in Ok (w * i)) lost = Ok (map (Z.mul w) idx) /\
    Forall2 (fun p i => 0 <= i < Z.of_nat (length order) /\ nth (Z.to_nat i) order (-1) = p) lost idx.
Proof. induction lost as [|p lost IH]; intros H; cbn [mapM].
  - exists []. split; [reflexivity|constructor].
  - assert (Hp : In p order) by (apply H; left; reflexivity). apply zindex_in in Hp. destruct Hp as (i & Ei). rewrite Ei. cbn [bind].
    destruct IH as (idx & Em & F); [intros x Hx; apply H; right; exact Hx|]. rewrite Em. cbn [bind map].
    exists (i :: idx). split; [reflexivity|]. constructor; [apply zindex_spec; exact Ei|exact F]. Qed.

Lemma carrier_index order i r : 0 <= i < Z.of_nat (length order) -> carrier order (i + r * Z.of_nat (length order)) = nth (Z.to_nat i) order (-1).
Proof. intros H. unfold carrier. rewrite Z.mod_add, Z.mod_small by lia. reflexivity. Qed.

Lemma div_index i r P : 0 <= i < P -> (i + r * P) / P = r.
Proof. intros H. rewrite Z.div_add, Z.div_small by lia. lia. Qed.

Lemma predict_exact order w words lost : 1 <= w -> NoDup order -> incl lost order -> lost <> [] ->
  exists errors, predict_corruption (Z.of_nat (length order)) w words order lost = Ok errors /\ NoDup errors /\
    forall e, In e errors <-> exists t, announced order w words lost t /\ In e (entries w (w * t)).
Proof. intros Hw N I Hl. set (P := Z.of_nat (length order)).
  destruct (starts_spec order w lost I) as (idx & Em & F). unfold predict_corruption. rewrite Em. cbn [bind].
  destruct lost as [|p0 lost]; [congruence|]. inversion F as [|? i0 ? idx' [B0 E0] F']; subst. cbn [map].
  set (P' := P) in *. assert (HP : 0 < P) by lia.
  destruct (predict_loop_spec w (w * P) (words * 32) ltac:(nia) (Z.to_nat (words * 32) + 1) (w * i0) (map (Z.mul w) idx') [])
    as (errors & E & Ne & Ie); [nia|constructor|].
  exists errors. split; [exact E|]. split; [exact Ne|]. intros e. rewrite Ie. split.
  - intros [[]|(b & r & Hb & Hr & H0 & H1 & H2)].
    change (w * i0 :: map (Z.mul w) idx') with (map (Z.mul w) (i0 :: idx')) in Hb. apply in_map_iff in Hb. destruct Hb as (i & <- & Hi).
    assert (Q : exists p, In p (nth (Z.to_nat i0) order (-1) :: lost) /\ 0 <= i < P /\ nth (Z.to_nat i) order (-1) = p).
    { clear - F Hi. revert Hi. generalize (i0 :: idx') F. clear. generalize (nth (Z.to_nat i0) order (-1) :: lost).
      intros l l' F. induction F as [|p j l l' [B E] F IH]; intros Hi; [destruct Hi|]. destruct Hi as [<-|Hi].
      - exists p. split; [left; reflexivity|]. auto.
      - destruct (IH Hi) as (q & Hq & X). exists q. split; [right; exact Hq|exact X]. }
    destruct Q as (p & Hp & Bi & Ep).
    exists (i + r * P). split.
    + split; [nia|]. split; [nia|]. split; [unfold P; rewrite carrier_index by exact Bi; rewrite Ep; exact Hp|].
      exists (i0 + r * P). fold P. rewrite !div_index by assumption. split; [reflexivity|]. split; [unfold P; rewrite carrier_index by exact B0; reflexivity|nia].
    + replace (w * (i + r * P)) with (w * i + r * (w * P)) by lia. exact H2.
  - intros (t & (Ht & Hlt & Hin & t0 & Et & Hd & H0) & He). right. fold P in Et.
    (* index of the carrier *)
    cbn [hd_error] in Hd. injection Hd as Hd.
    assert (M : forall s, 0 <= s mod P < P) by (intros s; apply Z.mod_pos_bound; lia).
    assert (Ei0 : i0 = t0 mod P).
    { pose proof (M t0). unfold carrier in Hd. fold P in Hd.
      assert (Z.to_nat i0 = Z.to_nat (t0 mod P)) by (apply (proj1 (NoDup_nth order (-1)) N); [lia|lia|exact Hd]). lia. }
    assert (Q : In (t mod P) (i0 :: idx')).
    { assert (G : forall l l', Forall2 (fun p i => 0 <= i < P /\ nth (Z.to_nat i) order (-1) = p) l l' ->
        In (carrier order t) l -> In (t mod P) l').
      { intros l l' FF. induction FF as [|p j l l' [B E1] FF IH]; intros Hc; [destruct Hc|]. destruct Hc as [Hc|Hc]; [left|right; auto].
        pose proof (M t). unfold carrier in Hc. fold P in Hc.
        assert (Z.to_nat j = Z.to_nat (t mod P)) by (apply (proj1 (NoDup_nth order (-1)) N); [lia|lia|congruence]). lia. }
      apply (G _ _ F Hin). }
    exists (w * (t mod P)), (t / P).
    pose proof (Z.div_mod t P ltac:(lia)) as D. pose proof (Z.div_mod t0 P ltac:(lia)) as D0. rewrite Et in D0.
    assert (0 <= t / P) by (apply Z.div_pos; lia).
    split; [change (w * i0 :: map (Z.mul w) idx') with (map (Z.mul w) (i0 :: idx')); apply in_map; exact Q|].
    split; [assumption|]. rewrite Ei0.
    replace (w * (t mod P) + t / P * (w * P)) with (w * t) by nia.
    replace (w * (t0 mod P) + t / P * (w * P)) with (w * t0) by nia. split; [lia|]. split; [lia|exact He]. Qed.

Lemma entries_reported w t x : 1 <= w -> 0 <= t ->
  ((exists e, In e (entries w (w * t)) /\ error_bits w e x) <-> reported w t x).
Proof. intros Hw Ht. unfold entries, reported. change (chunk_bit w t) with ((w * t) mod 32). change (chunk_word w t) with (w * t / 32).
  pose proof (Z.div_mod (w * t) 32 ltac:(lia)) as D. pose proof (Z.mod_pos_bound (w * t) 32 ltac:(lia)) as M.
  set (q := w * t / 32) in *. set (m := (w * t) mod 32) in *. clearbody q m.
  destruct (m + w >=? 32) eqn:E.
  - replace (m + w <? 32) with false by lia. split.
    + intros (e & [<-|[<-|[]]] & H); cbn [error_bits] in H; lia.
    + intros [H1 H2]. destruct (Z.lt_ge_cases x (32 * q + 31)) as [A|A].
      * eexists. split; [left; reflexivity|]. cbn [error_bits]. lia.
      * eexists. split; [right; left; reflexivity|]. cbn [error_bits]. lia.
  - replace (m + w <? 32) with true by lia. split.
    + intros (e & [<-|[]] & H); cbn [error_bits] in H; lia.
    + intros H. eexists. split; [left; reflexivity|]. cbn [error_bits]. lia. Qed.

Lemma predict_bits order w words lost : 1 <= w -> NoDup order -> incl lost order -> lost <> [] ->
  exists errors, predict_corruption (Z.of_nat (length order)) w words order lost = Ok errors /\
    forall x, predicted w errors x <-> exists t, announced order w words lost t /\ reported w t x.
Proof. intros Hw N I Hl. destruct (predict_exact order w words lost Hw N I Hl) as (errors & E & _ & Ie).
  exists errors. split; [exact E|]. intros x. split.
  - intros (e & He & Hb). apply Ie in He. destruct He as (t & Ha & He). exists t. split; [exact Ha|].
    apply entries_reported; [exact Hw|apply Ha|]. eauto.
  - intros (t & Ha & Hr). apply entries_reported in Hr; [|exact Hw|apply Ha]. destruct Hr as (e & He & Hb).
    exists e. split; [apply Ie; eauto|exact Hb]. Qed.

(** ** Chunks that divide words, whole rounds *)
Lemma announced_whole order w words lost t : 1 <= w -> (w | 32) -> lost <> [] -> NoDup order -> incl lost order ->
  (Z.of_nat (length order) | words * (32 / w)) ->
  (announced order w words lost t <-> 0 <= t < words * (32 / w) /\ In (carrier order t) lost).
Proof. intros Hw Hd Hl N I (m & Hm). set (P := Z.of_nat (length order)) in *.
  destruct (divisor_parts w ltac:(lia) Hd) as (Hn & Hn0 & _). set (n := 32 / w) in *.
  assert (HP : 0 < P).
  { destruct lost as [|p lost]; [congruence|]. assert (In p order) by (apply I; left; reflexivity).
    unfold P. destruct order; [contradiction|cbn [length]; lia]. }
  unfold announced. fold P. split.
  - intros (H1 & H2 & H3 & _). split; [nia|exact H3].
  - intros [H1 H2]. split; [lia|]. split; [nia|]. split; [exact H2|].
    destruct lost as [|p lost]; [congruence|]. assert (Hp : In p order) by (apply I; left; reflexivity).
    apply zindex_in in Hp. destruct Hp as (i & Ei). apply zindex_spec in Ei. destruct Ei as [Bi Ei]. fold P in Bi.
    exists (i + t / P * P). rewrite div_index by assumption. split; [reflexivity|].
    split; [unfold P; rewrite carrier_index by assumption; cbn [hd_error]; congruence|].
    assert (t / P < m) by (apply Z.div_lt_upper_bound; lia). nia. Qed.

Lemma predict_whole order w words lost : 1 <= w -> (w | 32) -> NoDup order -> incl lost order -> lost <> [] ->
  (Z.of_nat (length order) | words * (32 / w)) ->
  exists errors, predict_corruption (Z.of_nat (length order)) w words order lost = Ok errors /\
    forall x, predicted w errors x <->
      (lost_bit order w words lost x /\ x mod 32 <> 31) \/ (x mod 32 = 0 /\ lost_bit order w words lost (x - 1)).
Proof. intros Hw Hd N I Hl HP. destruct (predict_bits order w words lost Hw N I Hl) as (errors & E & Ie).
  exists errors. split; [exact E|]. intros x. rewrite Ie. clear Ie E errors.
  destruct (divisor_parts w ltac:(lia) Hd) as (Hn & Hn0 & Hw32). set (n := 32 / w) in *.
  assert (CB : forall t, chunk_word w t = t / n /\ chunk_bit w t = w * (t mod n)) by (intros t; apply chunk_pos; lia).
  assert (WN : w * (words * n) = 32 * words) by (rewrite <- Hn; ring).
  assert (UB : forall t, t < words * n -> w * t + w <= 32 * words).
  { intros t Ht. rewrite <- WN. replace (w * t + w) with (w * (t + 1)) by ring. apply Z.mul_le_mono_nonneg_l; lia. }
  assert (LB : forall t, w * t < 32 * words -> t < words * n).
  { intros t Ht. rewrite <- WN in Ht. apply Z.mul_lt_mono_pos_l in Ht; lia. }
  assert (NN : forall t, 0 <= t -> 0 <= w * t) by (intros; apply Z.mul_nonneg_nonneg; lia).
  split.
  - intros (t & Ha & Hr). apply announced_whole in Ha; try assumption. fold n in Ha. destruct Ha as [Bt Hc].
    unfold reported in Hr. destruct (CB t) as [C1 C2]. rewrite C2 in Hr.
    pose proof (Z.div_mod t n ltac:(lia)) as D. pose proof (Z.mod_pos_bound t n ltac:(lia)) as M.
    assert (Wt : w * t = 32 * (t / n) + w * (t mod n)) by nia.
    assert (Own : w * t <= x < w * t + w -> lost_bit order w words lost x).
    { intros Hx. pose proof (UB t ltac:(lia)). pose proof (NN t ltac:(lia)). split; [lia|]. replace (x / w) with t; [exact Hc|]. apply Z.div_unique with (x - w * t); lia. }
    destruct (w * (t mod n) + w <? 32) eqn:F.
    + left. split; [apply Own, Hr|]. intros X.
      assert (x mod 32 = w * (t mod n) + (x - w * t)); [|lia]. symmetry. apply Z.mod_unique with (t / n); lia.
    + assert (Tl : t mod n = n - 1) by nia. rewrite Tl in Wt. destruct Hr as [Hr1 Hr2]. rewrite C1 in Hr2.
      assert (w * (n - 1) = 32 - w) by lia.
      destruct (Z.eq_dec x (w * t + w)) as [X|X].
      * right. split; [symmetry; apply Z.mod_unique with (t / n + 1); lia|]. pose proof (UB t ltac:(lia)). pose proof (NN t ltac:(lia)). split; [lia|].
        replace ((x - 1) / w) with t; [exact Hc|]. apply Z.div_unique with (w - 1); lia.
      * left. split; [apply Own; lia|]. intros Y.
        assert (x mod 32 = 32 - w + (x - w * t)); [|lia]. symmetry. apply Z.mod_unique with (t / n); lia.
  - intros [[[Bx Hc] X]|[X [Bx Hc]]].
    + exists (x / w). pose proof (Z.div_mod x w ltac:(lia)) as D. pose proof (Z.mod_pos_bound x w ltac:(lia)) as M.
      assert (0 <= x / w) by (apply Z.div_pos; lia). split.
      * apply announced_whole; try assumption. fold n. split; [split; [lia|apply LB; lia]|exact Hc].
      * unfold reported. destruct (CB (x / w)) as [C1 C2]. rewrite C1, C2.
        destruct (w * ((x / w) mod n) + w <? 32) eqn:F; [lia|]. split; [lia|]. intros Y. apply X. rewrite Y.
        symmetry. apply Z.mod_unique with (x / w / n); lia.
    + exists ((x - 1) / w). pose proof (Z.div_mod (x - 1) w ltac:(lia)) as D. pose proof (Z.mod_pos_bound (x - 1) w ltac:(lia)) as M.
      set (t := (x - 1) / w) in *. assert (0 <= t) by (apply Z.div_pos; lia). split.
      * apply announced_whole; try assumption. fold n. split; [split; [lia|apply LB; lia]|exact Hc].
      * unfold reported. destruct (CB t) as [C1 C2]. rewrite C1, C2.
        pose proof (Z.div_mod t n ltac:(lia)) as D'. pose proof (Z.mod_pos_bound t n ltac:(lia)) as M'.
        pose proof (Z.div_mod x 32 ltac:(lia)) as D''. rewrite X in D''.
        (* x = 32 q, the chunk of bit x - 1 is the last of its word *)
        assert (Tl : t mod n = n - 1 /\ t / n = x / 32 - 1).
        { assert (t = n * (x / 32 - 1) + (n - 1)).
          { unfold t. symmetry. apply Z.div_unique with (w - 1); nia. }
          split; [symmetry; apply Z.mod_unique with (x / 32 - 1); lia|symmetry; apply Z.div_unique with (n - 1); lia]. }
        destruct Tl as [T1 T2]. rewrite T1, T2. replace (w * (n - 1) + w <? 32) with false by lia.
        assert (w * t = 32 * (x / 32) - w) by nia. split; lia. Qed.
