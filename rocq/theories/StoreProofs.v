From Verif Require Import ListLemmas BitsSpec QueueModel InterleaveModel InterleaveSpec InterleaveProofs FlipProofs SPModel SPSpec SPProofs
  PacketModel PacketSpec PredictProofs StoreModel StoreSpec.
From Coq Require Import ZifyBool ZifyNat Permutation.

(** ** The order starts with packet 0 *)
Lemma sp_first m : exists rs row, sucesive_packing m = (0 :: row) :: rs.
Proof. destruct (Z.le_gt_cases m 0) as [H|H]; [rewrite sp_nonpos by exact H; eauto|].
  rewrite sp_rows by lia. unfold rows_of. pose proof (pow2_pos' m ltac:(lia)). rewrite !(zrange_cons 0 (2 ^ m)) by lia. cbn [map].
  assert (E : G (Z.to_nat m) 0 0 = 0). { clear. induction (Z.to_nat m) as [|k IH]; cbn [G]; [reflexivity|]. rewrite ?Zmod_0_l, ?Zdiv_0_l, ?IH. reflexivity. }
  rewrite E. eauto. Qed.
Lemma interleave_rows_head r0 rs rest width : 0 < width -> exists t, interleave_rows ((r0 :: rs) :: rest) width = r0 :: t.
Proof. intros H. unfold interleave_rows. destruct (Z.to_nat width) as [|k] eqn:E; [lia|]. cbn [seq flat_map nth_error app]. eauto. Qed.
Lemma order_head n o : build_sp_flat n = Ok o -> exists t, o = 0 :: t.
Proof. unfold build_sp_flat, build_sp_rows. destruct (sp_matrices _ n 0) as [ms|] eqn:E; [|discriminate]. cbn [bind].
  destruct ms as [|[|r0 rs] rest]; try discriminate. cbn [bind].
  assert (H0 : exists row, r0 = 0 :: row).
  { clear - E. destruct (Z.to_nat (Z.log2 n) + 2)%nat as [|fuel] eqn:F; [lia|]. cbn [sp_matrices] in E. destruct (n >? 0) eqn:P; [|discriminate E].
    set (m := floor_log4_quarters n) in *. destruct (sp_first m) as (rs' & row & S).
    destruct (m <? 0).
    - destruct (n / 4 ^ (m + 1) - 1 >? 0); [discriminate E|]. destruct (sp_matrices fuel _ _); [|discriminate]. cbn [bind] in E. rewrite S in E. injection E as <- <- <-. eauto.
    - destruct (n / 4 ^ (m + 1) >? 0) eqn:Q.
      + destruct (n / 4 ^ (m + 1) =? 0); [discriminate|]. destruct (sp_matrices fuel _ _); [|discriminate]. cbn [bind app] in E.
        rewrite S in E. unfold add_const in E. cbn [map] in E. injection E as <- <- <-. eauto.
      + destruct (n / 4 ^ (m + 1) =? 0) eqn:Q0; [discriminate|]. destruct (sp_matrices fuel _ _); [|discriminate]. cbn [bind app] in E.
exfalso. clear - Q Q0 P. assert (0 <= 4 ^ (m + 1)) by (apply Z.pow_nonneg; lia).
        assert (0 <= n / 4 ^ (m + 1)) by (destruct (Z.eq_dec (4 ^ (m + 1)) 0) as [-> |]; [rewrite Zdiv_0_r; lia|apply Z.div_pos; lia]). lia. }
  destruct H0 as (row & ->). destruct (interleave_rows_head (0 :: row) rs rest (Z.of_nat (length (0 :: row))) ltac:(cbn [length]; lia)) as (t & Et).
  intros H. rewrite Et in H. cbn [concat app] in H. injection H as <-. eauto. Qed.

(** ** Predicted errors with a fractional number of packets *)
Lemma halves_round_map jump total bs errors : fst (halves_round jump total (bs, errors)) = map (fun b => b + jump) bs.
Proof. unfold halves_round. cbn [fst snd].
  assert (G : forall bs pre errors, fst (fold_left (fun acc b => (fst acc ++ [b + jump], predict_bit 2 total (b / 2) (snd acc))) bs (pre, errors)) = pre ++ map (fun b => b + jump) bs).
  { clear bs errors. induction bs as [|b bs IH]; intros pre errors; cbn [fold_left map fst snd]; [rewrite app_nil_r; reflexivity|]. rewrite IH, <- app_assoc. reflexivity. }
  apply (G bs []). Qed.
Definition entry_ok (e : error) : Prop := 0 <= e_word e /\ 0 <= e_bit e < 32.
Lemma predict_bit_ok total b errors : 0 <= b -> Forall entry_ok errors -> Forall entry_ok (predict_bit 2 total b errors).
Proof. intros Hb F. apply Forall_forall. intros e He. apply predict_bit_in in He. destruct He as [He|[_ He]]; [rewrite Forall_forall in F; apply F, He|].
  pose proof (Z.mod_pos_bound b 32 ltac:(lia)). assert (0 <= b / 32) by (apply Z.div_pos; lia).
  unfold entries in He. destruct (b mod 32 + 2 >=? 32); cbn [In] in He; unfold entry_ok; destruct He as [<-|He]; cbn [e_word e_bit fst snd]; try lia; destruct He as [<-|[]]; cbn [e_word e_bit fst snd]; lia. Qed.
Lemma halves_round_ok jump total bs errors : Forall (fun b => 0 <= b) bs -> Forall entry_ok errors -> Forall entry_ok (snd (halves_round jump total (bs, errors))).
Proof. unfold halves_round. cbn [fst snd].
  assert (G : forall bs pre errors, Forall (fun b => 0 <= b) bs -> Forall entry_ok errors -> Forall entry_ok (snd (fold_left (fun acc b => (fst acc ++ [b + jump], predict_bit 2 total (b / 2) (snd acc))) bs (pre, errors)))).
  { clear bs errors. induction bs as [|b bs IH]; intros pre errors Fb F; cbn [fold_left fst snd]; [exact F|].
    inversion Fb; subst. apply IH; [assumption|]. apply predict_bit_ok; [apply Z.div_pos; lia|exact F]. }
  apply G. Qed.
Lemma halves_loop_ok jump total : 0 < jump -> forall fuel b0 bs errors, 2 * total - b0 < Z.of_nat fuel -> Forall (fun b => 0 <= b) (b0 :: bs) -> Forall entry_ok errors ->
  exists errors', halves_loop fuel jump total (b0 :: bs, errors) = Ok errors' /\ Forall entry_ok errors'.
Proof. intros Hj. induction fuel as [|fuel IH]; intros b0 bs errors Hf Fb F; cbn [halves_loop fst snd]; change (nth_r (b0 :: bs) 0) with (Ok b0); cbn [bind].
  - replace (b0 <? 2 * total) with false by lia. eauto.
  - destruct (b0 <? 2 * total) eqn:E; [|eauto]. pose proof (halves_round_map jump total (b0 :: bs) errors) as M. pose proof (halves_round_ok jump total (b0 :: bs) errors Fb F) as K.
    destruct (halves_round jump total (b0 :: bs, errors)) as [bs' e']. cbn [fst snd map] in M, K. subst bs'. apply IH; [lia| |exact K].
    apply Forall_forall. intros b Hb. change (b0 + jump :: map (fun b => b + jump) bs) with (map (fun b => b + jump) (b0 :: bs)) in Hb. apply in_map_iff in Hb. destruct Hb as (b' & <- & Hb).
    rewrite Forall_forall in Fb. specialize (Fb b' Hb). lia. Qed.

(** With a whole number of packets it is [predict_corruption]. *)
Lemma halves_round_whole jump total bs errors :
  halves_round (2 * jump) total (map (Z.mul 2) bs, errors) = let (bs', e') := predict_round 2 jump total (bs, errors) in (map (Z.mul 2) bs', e').
Proof. unfold halves_round, predict_round. cbn [fst snd].
  assert (G : forall bs pre errors, fold_left (fun acc b => (fst acc ++ [b + 2 * jump], predict_bit 2 total (b / 2) (snd acc))) (map (Z.mul 2) bs) (map (Z.mul 2) pre, errors) =
     let (bs', e') := fold_left (fun acc b => (fst acc ++ [b + jump], predict_bit 2 total b (snd acc))) bs (pre, errors) in (map (Z.mul 2) bs', e')).
  { clear bs errors. induction bs as [|b bs IH]; intros pre errors; cbn [map fold_left fst snd]; [reflexivity|].
    rewrite <- IH. rewrite map_app. cbn [map]. replace (2 * b / 2) with b by (rewrite Z.mul_comm, Z.div_mul; lia). replace (2 * b + 2 * jump) with (2 * (b + jump)) by lia. reflexivity. }
  apply (G bs []). Qed.
Lemma halves_loop_whole jump total : forall fuel bs errors, halves_loop fuel (2 * jump) total (map (Z.mul 2) bs, errors) = predict_loop fuel 2 jump total (bs, errors).
Proof. induction fuel as [|fuel IH]; intros [|b0 bs] errors; cbn [halves_loop predict_loop fst snd map]; try reflexivity;
  change (nth_r (b0 :: bs) 0) with (Ok b0); change (nth_r (2 * b0 :: map (Z.mul 2) bs) 0) with (Ok (2 * b0)); cbn [bind].
  - replace (2 * b0 <? 2 * total) with (b0 <? total) by lia. reflexivity.
  - replace (2 * b0 <? 2 * total) with (b0 <? total) by lia. destruct (b0 <? total); [|reflexivity].
    change (2 * b0 :: map (Z.mul 2) bs) with (map (Z.mul 2) (b0 :: bs)). rewrite halves_round_whole. destruct (predict_round 2 jump total (b0 :: bs, errors)). apply IH. Qed.
Lemma predict_loop_more w jump total : forall fuel more st e, predict_loop fuel w jump total st = Ok e -> predict_loop (fuel + more) w jump total st = Ok e.
Proof. induction fuel as [|fuel IH]; intros more st e; cbn [predict_loop Nat.add].
  - destruct (nth_r (fst st) 0) as [b0|] eqn:E; cbn [bind]; [|discriminate]. destruct (b0 <? total) eqn:B; [discriminate|]. intros H.
    destruct more; cbn [predict_loop]; rewrite E; cbn [bind]; rewrite B; exact H.
  - destruct (nth_r (fst st) 0) as [b0|]; cbn [bind]; [|discriminate]. destruct (b0 <? total); [apply IH|auto]. Qed.
Lemma predict_quarters_whole P words order lost e : predict_corruption P 2 words order lost = Ok e -> 0 <= words -> predict_quarters (4 * P) words order lost = Ok e.
Proof. unfold predict_corruption, predict_quarters. intros H Hw.
  assert (M : mapM (fun p => let* i := zindex order p in Ok (2 * (2 * i))) lost = rmap (map (Z.mul 2)) (mapM (fun p => let* i := zindex order p in Ok (2 * i)) lost)).
  { clear. induction lost as [|p lost IH]; [reflexivity|]. cbn [mapM]. destruct (zindex order p); [|reflexivity]. cbn [bind]. rewrite IH. destruct (mapM (fun p => let* i := zindex order p in Ok (2 * i)) lost); reflexivity. }
  rewrite M. destruct (mapM (fun p => let* i := zindex order p in Ok (2 * i)) lost) as [bs|]; [|discriminate]. cbn [bind rmap] in *.
  replace (4 * P) with (2 * (2 * P)) by lia. rewrite halves_loop_whole.
  replace (Z.to_nat (2 * (words * 32)) + 1)%nat with ((Z.to_nat (words * 32) + 1) + Z.to_nat (words * 32))%nat by lia. apply predict_loop_more, H. Qed.

(** ** Exactly what is predicted *)
Lemma halves_round_spec jump total bs errors : exists errors',
  halves_round jump total (bs, errors) = (map (fun b => b + jump) bs, errors') /\
  (NoDup errors -> NoDup errors') /\
  (forall x, In x errors' <-> In x errors \/ exists b, In b bs /\ b / 2 < total /\ In x (entries 2 (b / 2))).
Proof. unfold halves_round. cbn [fst snd].
  assert (G : forall bs pre errors, exists errors',
    fold_left (fun acc b => (fst acc ++ [b + jump], predict_bit 2 total (b / 2) (snd acc))) bs (pre, errors) =
      (pre ++ map (fun b => b + jump) bs, errors') /\ (NoDup errors -> NoDup errors') /\
    (forall x, In x errors' <-> In x errors \/ exists b, In b bs /\ b / 2 < total /\ In x (entries 2 (b / 2)))).
  { clear bs errors. induction bs as [|b bs IH]; intros pre errors; cbn [fold_left fst snd map].
    - exists errors. rewrite app_nil_r. split; [reflexivity|]. split; [auto|]. intros x. split; [tauto|].
      intros [H|(b & [] & _)]; exact H.
    - destruct (IH (pre ++ [b + jump]) (predict_bit 2 total (b / 2) errors)) as (errors' & E & N & I).
      exists errors'. rewrite E, <- app_assoc. split; [reflexivity|]. split; [intros H; apply N, predict_bit_nodup, H|].
      intros x. rewrite I, predict_bit_in. split.
      + intros [[H|[H1 H2]]|(b' & Hb & H)]; [tauto|right; exists b; cbn [In]; auto|right; exists b'; cbn [In]; auto].
      + intros [H|(b' & [<-|Hb] & H)]; [tauto|tauto|right; exists b'; auto]. }
  apply (G bs [] errors). Qed.
Lemma halves_loop_spec jump total : 0 < jump -> forall fuel b0 bs errors, 2 * total - b0 < Z.of_nat fuel * jump \/ 2 * total <= b0 ->
  NoDup errors ->
  exists errors', halves_loop fuel jump total (b0 :: bs, errors) = Ok errors' /\ NoDup errors' /\
    forall x, In x errors' <-> In x errors \/
       exists b r, In b (b0 :: bs) /\ 0 <= r /\ b0 + r * jump < 2 * total /\ (b + r * jump) / 2 < total /\ In x (entries 2 ((b + r * jump) / 2)).
Proof. intros Hj. induction fuel as [|fuel IH]; intros b0 bs errors Hf N; cbn [halves_loop fst snd].
  all: change (nth_r (b0 :: bs) 0) with (Ok b0); cbn [bind].
  - replace (b0 <? 2 * total) with false by lia. exists errors. split; [reflexivity|]. split; [exact N|]. intros x. split; [tauto|].
    intros [H|(b & r & Hb & Hr & H & _)]; [exact H|nia].
  - destruct (b0 <? 2 * total) eqn:E.
    2:{ exists errors. split; [reflexivity|]. split; [exact N|]. intros x. split; [tauto|].
        intros [H|(b & r & Hb & Hr & H & _)]; [exact H|nia]. }
    destruct (halves_round_spec jump total (b0 :: bs) errors) as (e1 & E1 & N1 & I1). rewrite E1. cbn [map].
    destruct (IH (b0 + jump) (map (fun b => b + jump) bs) e1) as (e2 & E2 & N2 & I2); [nia|auto|].
    exists e2. split; [exact E2|]. split; [exact N2|]. intros x. rewrite I2, I1. split.
    + intros [[H|(b & Hb & Hlt & H)]|(b & r & Hb & Hr & H0 & H1 & H2)]; [tauto| |].
      * right. exists b, 0. rewrite !Z.mul_0_l, !Z.add_0_r. split; [exact Hb|]. split; [lia|]. split; [lia|]. auto.
      * change (b0 + jump :: map (fun b => b + jump) bs) with (map (fun b => b + jump) (b0 :: bs)) in Hb.
        apply in_map_iff in Hb. destruct Hb as (b' & <- & Hb). right. exists b', (r + 1).
        replace (b' + (r + 1) * jump) with (b' + jump + r * jump) by lia.
        split; [exact Hb|]. split; [lia|]. split; [lia|]. auto.
    + intros [H|(b & r & Hb & Hr & H0 & H1 & H2)]; [tauto|]. destruct (Z.eq_dec r 0) as [->|Nr].
      * rewrite Z.mul_0_l, Z.add_0_r in *. left. right. exists b. auto.
      * right. exists (b + jump), (r - 1).
        replace (b + jump + (r - 1) * jump) with (b + r * jump) by lia.
        split; [|split; [lia|split; [lia|auto]]].
        change (b0 + jump :: map (fun b => b + jump) bs) with (map (fun b => b + jump) (b0 :: bs)).
        apply in_map_iff. exists b; auto. Qed.
Lemma zindex_first order : forall q i, zindex order q = Ok i <-> first_at order q i.
Proof. unfold first_at. induction order as [|y order IH]; intros q i; cbn [zindex length].
  - split; [discriminate|]. intros [H _]. lia.
  - destruct (Z.eqb_spec y q) as [->|D].
    + split.
      * intros H. injection H as <-. split; [lia|]. split; [reflexivity|]. intros j Hj. lia.
      * intros (H1 & H2 & H3). destruct (Z.eq_dec i 0) as [->|]; [reflexivity|]. exfalso. apply (H3 0); [lia|reflexivity].
    + assert (S : forall j, 0 < j -> nth (Z.to_nat j) (y :: order) (-1) = nth (Z.to_nat (j - 1)) order (-1)).
      { intros j Hj. replace (Z.to_nat j) with (S (Z.to_nat (j - 1))) by lia. reflexivity. }
      split.
      * destruct (zindex order q) as [k|] eqn:E; [|discriminate]. cbn [rmap]. intros H. assert (Hi : i = k + 1) by (cut (Ok i = Ok (k + 1)); [congruence|rewrite <- H; f_equal; lia]). destruct (proj1 (IH q k) E) as (A & B & C). split; [lia|].
        split; [rewrite S by lia; replace (i - 1) with k by lia; exact B|]. intros j Hj. destruct (Z.eq_dec j 0) as [->|]; [exact D|]. rewrite S by lia. apply C. lia.
      * intros (A & B & C). assert (i <> 0) by (intros ->; apply D, B). assert (X : zindex order q = Ok (i - 1)).
        { apply IH. rewrite <- S by lia. split; [lia|]. split; [exact B|]. intros j Hj. replace j with (j + 1 - 1) by lia. rewrite <- S by lia. apply C. lia. }
        rewrite X. cbn [rmap]. f_equal. lia. Qed.
Lemma starts_first order (f : Z -> Z) lost : incl lost order -> exists bs, mapM (fun p => let* i := zindex order p in Ok (f i)) lost = Ok bs /\
  (forall b, In b bs <-> exists q i, In q lost /\ first_at order q i /\ b = f i) /\ (forall q l, lost = q :: l -> forall i, first_at order q i -> exists bt, bs = f i :: bt).
Proof. induction lost as [|p lost IH]; intros I.
  { exists []. cbn [mapM]. split; [reflexivity|]. split; [|discriminate]. intros b. split; [intros []|intros (q & i & [] & _)]. }
  assert (Hp : In p order) by (apply I; left; reflexivity). apply zindex_in in Hp. destruct Hp as (k & Ek). cbn [mapM]. rewrite Ek. cbn [bind].
  destruct IH as (bs & E & H & _); [intros x Hx; apply I; right; exact Hx|]. rewrite E. cbn [bind]. exists (f k :: bs). split; [reflexivity|]. split.
  - intros b. cbn [In]. rewrite H. split.
    + intros [<-|(q & i & Hq & Hi & ->)]; [exists p, k; rewrite <- zindex_first; auto|exists q, i; auto].
    + intros (q & i & [<-|Hq] & Hi & ->); [left; apply zindex_first in Hi; congruence|right; exists q, i; auto].
  - intros q l Eq i Hi. injection Eq as <- <-. apply zindex_first in Hi. exists bs. congruence. Qed.
