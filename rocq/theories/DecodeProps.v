(** C50, continued: exactly what the bit solution keeps of the chosen indices. *)
From Verif Require Import ListLemmas BitsModel BitsSpec BitsProofs QueueModel QueueSpec QueueProofs BuilderModel BuilderSpec BuilderProofs BuilderProps.
From Coq Require Import ZifyBool ZifyNat Permutation Sorted.

(** An index of [w] bits put at position [off] of words of 32 bits.  If it crosses the end
    of the word, the lowest bits fill the word, the lowest bits are written once more at
    the start of the next word, as many as cross, and the next index follows [w] bits
    behind the start. *)
Definition crosses (off w : Z) : bool := 32 <? off mod 32 + w.
Definition following (off w : Z) : Z := if crosses off w then 32 * (off / 32 + 1) + w else off + w.
(** How many of the lowest bits can be read back. *)
Definition kept (off w : Z) : Z := if crosses off w then Z.max (32 - off mod 32) (off mod 32 + w - 32) else w.
Fixpoint kepts (off : Z) (ws : list Z) : list Z := match ws with [] => [] | w :: ws' => kept off w :: kepts (following off w) ws' end.
(** What the index adds to the number. *)
Definition stored (off w i : Z) : Z :=
  if crosses off w then (i mod 2 ^ (32 - off mod 32)) * 2 ^ off + (i mod 2 ^ (off mod 32 + w - 32)) * 2 ^ (32 * (off / 32 + 1)) else (i mod 2 ^ w) * 2 ^ off.
Fixpoint total (off : Z) (l : list (Z * Z)) : Z := match l with [] => 0 | (w, i) :: l' => stored off w i + total (following off w) l' end.
Fixpoint finish (off : Z) (ws : list Z) : Z := match ws with [] => off | w :: ws' => finish (following off w) ws' end.

Lemma kepts_length ws : forall off, length (kepts off ws) = length ws.
Proof. induction ws as [|w ws IH]; intros off; cbn [kepts length]; [reflexivity|rewrite IH; reflexivity]. Qed.
Lemma field0 i w : field i 0 w = i mod 2 ^ w.
Proof. unfold field. rewrite Z.pow_0_r, Z.div_1_r. reflexivity. Qed.
Lemma enqueue_any q off value w i : BuilderProps.holds q off value -> 1 <= w <= 31 ->
  exists q', bq_enqueue (set_ws q w) i 0 = Ok q' /\ BuilderProps.holds q' (following off w) (value + stored off w i).
Proof. intros H Hw. unfold following, stored. destruct (crosses off w) eqn:C; unfold crosses in C.
  - destruct H as [Ho (pre & last & E & Eq & Eo & Hb & Hl & F) V]. destruct q as [bytes ew eb db ws]. cbn [q_bytes q_eq_word q_eq_bit q_dq_bit q_ws] in *.
    assert (Em : off mod 32 = eb) by (rewrite Eo; rewrite Z.mul_comm, Z.add_comm, Z.mod_add by lia; apply Z.mod_small; lia). rewrite Em in *.
    assert (Ed : off / 32 = Z.of_nat (length pre)) by (rewrite Eo, Z.mul_comm, Z.div_add_l, Z.div_small by lia; lia). rewrite Ed in *. subst bytes ew.
    unfold set_ws, bq_enqueue. cbn [q_bytes q_eq_word q_eq_bit q_dq_bit q_ws]. rewrite check_range_ok by lia. cbn [bind]. destruct (eb + w - 1 >? 31) eqn:D; [|lia]. rewrite py_get_last. cbn [bind].
    rewrite Z.max_r by lia. rewrite copy_bits_ok by lia. cbn [bind]. replace (0 + (32 - eb - 1)) with (0 + (32 - eb) - 1) by lia. rewrite copy_val_with_field by lia. rewrite with_field_high by lia. rewrite field0. rewrite py_set_last. cbn [bind].
    set (last' := last + i mod 2 ^ (32 - eb) * 2 ^ eb). replace (Z.of_nat (length pre) + 1) with (Z.of_nat (length (pre ++ [last']))) by (rewrite app_length; cbn [length]; lia). rewrite py_get_last. cbn [bind].
    rewrite Z.max_r by lia. rewrite copy_bits_ok by lia. cbn [bind]. replace (0 + (eb + w - 32 - 1)) with (0 + (eb + w - 32) - 1) by lia. rewrite copy_val_with_field by lia. rewrite with_field_high by (cbn; lia). rewrite field0. rewrite py_set_last. cbn [bind q_bytes q_eq_word q_eq_bit q_dq_bit q_ws].
    destruct (0 + w >? 31) eqn:D2; [lia|]. eexists. split; [reflexivity|].
    assert (A : 0 <= i mod 2 ^ (32 - eb) < 2 ^ (32 - eb)) by (apply Z.mod_pos_bound, pow2_pos; lia). assert (B : 0 <= i mod 2 ^ (eb + w - 32) < 2 ^ (eb + w - 32)) by (apply Z.mod_pos_bound, pow2_pos; lia).
    constructor; cbn [q_bytes q_eq_word q_eq_bit q_dq_bit q_ws]; [rewrite app_length; cbn [length]; lia| |].
    + exists (pre ++ [last']), (0 + i mod 2 ^ (eb + w - 32) * 2 ^ 0). split; [reflexivity|]. split; [reflexivity|]. split; [rewrite app_length; cbn [length]; lia|]. split; [lia|]. split.
      * rewrite Z.pow_0_r, Z.mul_1_r, !Z.add_0_l. assert (2 ^ (eb + w - 32) <= 2 ^ w) by (apply Z.pow_le_mono_r; lia). lia.
      * apply Forall_app. split; [exact F|]. constructor; [|constructor]. unfold word, last'. assert (E32 : 2 ^ 32 = 2 ^ eb * 2 ^ (32 - eb)) by (rewrite <- Z.pow_add_r by lia; f_equal; lia). rewrite E32. clear E32. pose proof (pow2_pos eb ltac:(lia)). nia.
    + rewrite !as_number_app. cbn [as_number fold_right]. rewrite <- V, as_number_app. cbn [as_number fold_right]. unfold last'. rewrite app_length. cbn [length]. replace (Z.of_nat (length pre + 1)) with (Z.of_nat (length pre) + 1) by lia.
      rewrite Eo, Z.pow_add_r by lia. rewrite Z.pow_0_r. ring.
  - destruct (Z.eq_dec 0 0) as [_|]; [|lia]. pose proof H as [Ho _ _]. assert (M := Z.mod_pos_bound off 32 ltac:(lia)).
    destruct H as [Ho' (pre & last & E & Eq & Eo & Hb & Hl & F) V]. destruct q as [bytes ew eb db ws]. cbn [q_bytes q_eq_word q_eq_bit q_dq_bit q_ws] in *.
    assert (Em : off mod 32 = eb) by (rewrite Eo; rewrite Z.mul_comm, Z.add_comm, Z.mod_add by lia; apply Z.mod_small; lia). rewrite Em in *. subst bytes ew.
    unfold set_ws, bq_enqueue. cbn [q_bytes q_eq_word q_eq_bit q_dq_bit q_ws]. rewrite check_range_ok by lia. cbn [bind]. destruct (eb + w - 1 >? 31) eqn:D; [lia|]. rewrite py_get_last. cbn [bind]. rewrite Z.max_r by lia. rewrite copy_bits_ok by lia. cbn [bind]. rewrite py_set_last. cbn [bind q_ws q_eq_bit q_dq_bit q_eq_word q_bytes].
    rewrite copy_val_with_field by lia. rewrite with_field_high by lia. rewrite field0. assert (B : 0 <= i mod 2 ^ w < 2 ^ w) by (apply Z.mod_pos_bound, pow2_pos; lia). set (k := i mod 2 ^ w) in *.
    assert (V2 : as_number (pre ++ [last + k * 2 ^ eb]) = value + k * 2 ^ off). { rewrite <- V, !as_number_app. cbn [as_number fold_right]. rewrite Eo, Z.pow_add_r by lia. ring. }
    assert (Hl' : 0 <= last + k * 2 ^ eb < 2 ^ (eb + w)) by (rewrite Z.pow_add_r by lia; pose proof (pow2_pos eb ltac:(lia)); nia).
    destruct (eb + w >? 31) eqn:D2; eexists; (split; [reflexivity|]); constructor; cbn [q_ws q_eq_bit q_dq_bit q_eq_word q_bytes]; try lia; try exact V2.
    + exists (pre ++ [last + k * 2 ^ eb]), 0. split; [reflexivity|]. split; [rewrite app_length; cbn [length]; lia|]. split; [rewrite app_length; cbn [length]; lia|]. split; [lia|]. split; [replace (eb + w - 32) with 0 by lia; cbn; lia|]. apply Forall_app. split; [exact F|]. constructor; [|constructor]. unfold word. replace 32 with (eb + w) by lia. exact Hl'.
    + rewrite as_number_app, V2. cbn [as_number fold_right]. ring.
    + exists pre, (last + k * 2 ^ eb). split; [reflexivity|]. split; [reflexivity|]. split; [lia|]. split; [lia|]. split; [exact Hl'|exact F]. Qed.

Definition chosen (v : list xinst * xinst) : Z := match find_index (fst v) (x_text (snd v)) with Ok i => Z.of_nat i | Err _ => 0 end.
Lemma fold_any vs : forall q off value, BuilderProps.holds q off value ->
  Forall (fun v => (1 < length (fst v))%nat /\ Z.of_nat (length (fst v)) < 2 ^ 32 /\ exists c, In c (fst v) /\ x_text c = x_text (snd v)) vs -> forall size,
  exists q', foldM (fun s v => let* i := find_index (fst v) (x_text (snd v)) in bit_index s i (fst v)) vs (size, q) = Ok (size + fold_right Z.add 0 (map width vs), q') /\
    BuilderProps.holds q' (finish off (map width vs)) (value + total off (map (fun v => (width v, chosen v)) vs)).
Proof. induction vs as [|v vs IH]; intros q off value H F size; cbn [foldM map fold_right finish total].
  - exists q. rewrite !Z.add_0_r. split; [reflexivity|exact H].
  - inversion F as [|? ? (F1 & F2 & c & Fc & Ft) F3]; subst. pose proof (find_index_spec (fst v) (x_text (snd v))) as Fi. unfold chosen at 1. destruct (find_index (fst v) (x_text (snd v))) as [i|e] eqn:Ei; [|exfalso; destruct Fi as [_ Fi]; exact (Fi c Fc Ft)]. cbn [bind].
    assert (Wd : 1 <= width v <= 31). { unfold width. split; [change 1 with (Z.log2 2); apply Z.log2_le_mono; lia|]. assert (Z.log2 (Z.of_nat (length (fst v))) < 32) by (apply Z.log2_lt_pow2; lia). lia. }
    unfold bit_index at 1. replace (1 <? length (fst v))%nat with true by lia. cbn [fst snd]. fold (width v).
    destruct (enqueue_any q off value (width v) (Z.of_nat i) H Wd) as (q1 & E1 & H1). rewrite E1. cbn [bind].
    destruct (IH q1 _ _ H1 F3 (size + width v)) as (q' & E & H'). exists q'. split; [rewrite E; f_equal; f_equal; lia|]. rewrite Z.add_assoc. exact H'. Qed.

(** Equal numbers are equal words. *)
Lemma as_number_inj a : forall b, length a = length b -> Forall word a -> Forall word b -> as_number a = as_number b -> a = b.
Proof. induction a as [|x a IH]; intros [|y b] L Fa Fb E; try discriminate; [reflexivity|]. inversion Fa; subst. inversion Fb; subst. cbn [as_number fold_right] in E. fold (as_number a) in E. fold (as_number b) in E. unfold word in *.
  assert (X : x = y). { assert (M : (x + as_number a * 2 ^ 32) mod 2 ^ 32 = (y + as_number b * 2 ^ 32) mod 2 ^ 32) by (rewrite E; reflexivity). rewrite !Z.mod_add in M by lia. rewrite !Z.mod_small in M by lia. exact M. }
  subst y. f_equal. apply IH; try assumption; [cbn in L; lia|]. clear - E. nia. Qed.
Lemma holds_words q off value : BuilderProps.holds q off value -> Forall word (q_bytes q) /\ Z.of_nat (length (q_bytes q)) = off / 32 + 1.
Proof. intros [Ho (pre & last & E & _ & Eo & Hb & Hl & F) _]. rewrite E. split.
  - apply Forall_app. split; [exact F|]. constructor; [|constructor]. unfold word. assert (2 ^ q_eq_bit q <= 2 ^ 32) by (apply Z.pow_le_mono_r; lia). lia.
  - rewrite app_length. cbn [length]. rewrite Eo, Z.mul_comm, Z.div_add_l, Z.div_small by lia. lia. Qed.
Lemma holds_same q q' off value value' : BuilderProps.holds q off value -> BuilderProps.holds q' off value' -> (bq_get_bytes q = bq_get_bytes q' <-> value = value').
Proof. intros H H'. destruct (holds_words _ _ _ H) as [W L]. destruct (holds_words _ _ _ H') as [W' L']. unfold bq_get_bytes. rewrite <- (h_value _ _ _ H), <- (h_value _ _ _ H'). split; [intros ->; reflexivity|]. apply as_number_inj; [lia|exact W|exact W']. Qed.

(** Equal numbers are equal low bits. *)
Lemma following_ge off w : 0 <= off -> 1 <= w -> off < following off w.
Proof. intros Ho Hw. unfold following. pose proof (Z.div_mod off 32 ltac:(lia)). pose proof (Z.mod_pos_bound off 32 ltac:(lia)). destruct (crosses off w); lia. Qed.
Lemma total_multiple l : forall off, 0 <= off -> Forall (fun wi => 1 <= fst wi) l -> exists k, total off l = k * 2 ^ off.
Proof. induction l as [|[w i] l IH]; intros off Ho F; cbn [total]; [exists 0; ring|]. inversion F as [|? ? Fw F']; subst. cbn [fst] in Fw. pose proof (following_ge off w Ho Fw) as L. destruct (IH (following off w) ltac:(lia) F') as (k & ->).
  assert (Ef : 2 ^ following off w = 2 ^ off * 2 ^ (following off w - off)) by (rewrite <- Z.pow_add_r by lia; f_equal; lia). rewrite Ef. clear Ef. unfold stored. destruct (crosses off w) eqn:C.
  - pose proof (Z.div_mod off 32 ltac:(lia)). pose proof (Z.mod_pos_bound off 32 ltac:(lia)). replace (32 * (off / 32 + 1)) with (off + (32 - off mod 32)) by lia. rewrite (Z.pow_add_r 2 off (32 - off mod 32)) by lia. exists (i mod 2 ^ (32 - off mod 32) + i mod 2 ^ (off mod 32 + w - 32) * 2 ^ (32 - off mod 32) + k * 2 ^ (following off w - off)).
    generalize (i mod 2 ^ (32 - off mod 32)) (i mod 2 ^ (off mod 32 + w - 32)) (2 ^ (32 - off mod 32)) (2 ^ (following off w - off)) (2 ^ off). intros. ring.
  - exists (i mod 2 ^ w + k * 2 ^ (following off w - off)). generalize (i mod 2 ^ w) (2 ^ (following off w - off)) (2 ^ off). intros. ring. Qed.
Lemma put_bound x y a b : 0 <= x < a -> 0 <= y < b -> 0 <= x + y * a < b * a.
Proof. intros. nia. Qed.
Lemma stored_bound off w i : 0 <= off -> 1 <= w <= 31 -> 0 <= stored off w i < 2 ^ following off w.
Proof. intros Ho Hw. unfold stored, following. pose proof (Z.div_mod off 32 ltac:(lia)) as D. pose proof (Z.mod_pos_bound off 32 ltac:(lia)) as M. pose proof (pow2_pos off Ho) as P. destruct (crosses off w) eqn:C; unfold crosses in C.
  - pose proof (Z.mod_pos_bound i (2 ^ (32 - off mod 32)) ltac:(apply pow2_pos; lia)) as A. pose proof (Z.mod_pos_bound i (2 ^ (off mod 32 + w - 32)) ltac:(apply pow2_pos; lia)) as B.
    set (base := 32 * (off / 32 + 1)). assert (Eb : 2 ^ base = 2 ^ (32 - off mod 32) * 2 ^ off) by (rewrite <- Z.pow_add_r by lia; f_equal; unfold base; lia). rewrite (Z.add_comm base w), (Z.pow_add_r 2 w base) by (unfold base; lia).
    assert (Lw : 2 ^ (off mod 32 + w - 32) <= 2 ^ w) by (apply Z.pow_le_mono_r; lia). apply put_bound; [|clear - B Lw; lia]. rewrite Eb. clear - A P. revert A. generalize (i mod 2 ^ (32 - off mod 32)) (2 ^ (32 - off mod 32)) (2 ^ off) P. intros. nia.
  - pose proof (Z.mod_pos_bound i (2 ^ w) ltac:(apply pow2_pos; lia)) as A. rewrite Z.pow_add_r by lia. clear - A P. revert A P. generalize (i mod 2 ^ w) (2 ^ w) (2 ^ off). intros. nia. Qed.
Lemma mod_mod_le i a b : 0 <= a <= b -> (i mod 2 ^ b) mod 2 ^ a = i mod 2 ^ a.
Proof. intros H. replace b with (a + (b - a)) by lia. rewrite Z.pow_add_r by lia. pose proof (pow2_pos a ltac:(lia)). pose proof (pow2_pos (b - a) ltac:(lia)). rewrite Z.rem_mul_r by lia. rewrite Z.mul_comm, Z.mod_add by lia. apply Z.mod_mod. lia. Qed.
Lemma stored_same off w i i' : 0 <= off -> 1 <= w <= 31 -> (stored off w i = stored off w i' <-> i mod 2 ^ kept off w = i' mod 2 ^ kept off w).
Proof. intros Ho Hw. unfold stored, kept. pose proof (Z.div_mod off 32 ltac:(lia)) as D. pose proof (Z.mod_pos_bound off 32 ltac:(lia)) as M. pose proof (pow2_pos off Ho) as P. destruct (crosses off w) eqn:C; unfold crosses in C.
  - set (a := 32 - off mod 32). set (b := off mod 32 + w - 32). replace (32 * (off / 32 + 1)) with (a + off) by (unfold a; lia). rewrite (Z.pow_add_r 2 a off) by (unfold a; lia).
    assert (Pa : 0 < 2 ^ a) by (apply pow2_pos; unfold a; lia). pose proof (Z.mod_pos_bound i (2 ^ a) Pa) as A. pose proof (Z.mod_pos_bound i' (2 ^ a) Pa) as A'.
    transitivity (i mod 2 ^ a = i' mod 2 ^ a /\ i mod 2 ^ b = i' mod 2 ^ b).
    + split; [|intros [-> ->]; reflexivity]. intros E. assert (E2 : i mod 2 ^ a + i mod 2 ^ b * 2 ^ a = i' mod 2 ^ a + i' mod 2 ^ b * 2 ^ a) by (clear - E P; revert E P; generalize (i mod 2 ^ a) (i mod 2 ^ b) (i' mod 2 ^ a) (i' mod 2 ^ b) (2 ^ a) (2 ^ off); intros x y x' y' u v E P; apply (Z.mul_cancel_r _ _ v); [lia|]; rewrite !Z.mul_add_distr_r, <- !Z.mul_assoc; exact E). assert (X : i mod 2 ^ a = i' mod 2 ^ a). { assert (Y : (i mod 2 ^ a + i mod 2 ^ b * 2 ^ a) mod 2 ^ a = (i' mod 2 ^ a + i' mod 2 ^ b * 2 ^ a) mod 2 ^ a) by (rewrite E2; reflexivity). rewrite !Z.mod_add in Y by lia. rewrite !Z.mod_mod in Y by lia. exact Y. }
      split; [exact X|]. rewrite X in E2. apply Z.add_cancel_l in E2. apply Z.mul_cancel_r in E2; [exact E2|lia].
    + split.
      * intros [X Y]. destruct (Z.max_spec a b) as [[_ ->]|[_ ->]]; assumption.
      * intros X. split; [rewrite <- (mod_mod_le i a (Z.max a b)), <- (mod_mod_le i' a (Z.max a b)) by (unfold a in *; lia)|rewrite <- (mod_mod_le i b (Z.max a b)), <- (mod_mod_le i' b (Z.max a b)) by (unfold b in *; lia)]; rewrite X; reflexivity.
  - split; [intros E; apply Z.mul_cancel_r in E; [exact E|lia]|intros ->; reflexivity]. Qed.
Lemma total_same ws : forall off is is', 0 <= off -> Forall (fun w => 1 <= w <= 31) ws -> length is = length ws -> length is' = length ws ->
  (total off (combine ws is) = total off (combine ws is') <-> Forall2 (fun k p => fst p mod 2 ^ k = snd p mod 2 ^ k) (kepts off ws) (combine is is')).
Proof. induction ws as [|w ws IH]; intros off [|i is] [|i' is'] Ho F L L'; try discriminate; cbn [combine total kepts]; [split; [constructor|reflexivity]|]. inversion F as [|? ? Hw F']; subst.
  pose proof (following_ge off w Ho ltac:(lia)) as G. specialize (IH (following off w) is is' ltac:(lia) F' ltac:(cbn in L; lia) ltac:(cbn in L'; lia)).
  assert (Fc : forall js : list Z, Forall (fun wi : Z * Z => 1 <= fst wi) (combine ws js)). { intros js. apply Forall_forall. intros [x y] Ix. apply in_combine_l in Ix. rewrite Forall_forall in F'. cbn [fst]. specialize (F' x Ix). lia. }
  destruct (total_multiple (combine ws is) (following off w) ltac:(lia) (Fc is)) as (k & Ek). destruct (total_multiple (combine ws is') (following off w) ltac:(lia) (Fc is')) as (k' & Ek').
  assert (S : stored off w i + total (following off w) (combine ws is) = stored off w i' + total (following off w) (combine ws is') <-> stored off w i = stored off w i' /\ total (following off w) (combine ws is) = total (following off w) (combine ws is')).
  { split; [|intros [-> ->]; reflexivity]. intros E. rewrite Ek, Ek' in E. pose proof (stored_bound off w i Ho Hw). pose proof (stored_bound off w i' Ho Hw). pose proof (pow2_pos (following off w) ltac:(lia)).
    assert (X : stored off w i = stored off w i'). { assert (Y : (stored off w i + k * 2 ^ following off w) mod 2 ^ following off w = (stored off w i' + k' * 2 ^ following off w) mod 2 ^ following off w) by (rewrite E; reflexivity). rewrite !Z.mod_add in Y by lia. rewrite !Z.mod_small in Y by lia. exact Y. }
    split; [exact X|]. rewrite Ek, Ek'. lia. }
  rewrite S, IH, (stored_same off w i i' Ho Hw). split; [intros [A B]; constructor; assumption|intros X; inversion X; subst; split; assumption]. Qed.

(** The index of a text is that of the first candidate printed so. *)
Definition first_like (pa : list xinst) (text : Z) (i : nat) : Prop :=
  exists c, nth_error pa i = Some c /\ x_text c = text /\ forall j d, (j < i)%nat -> nth_error pa j = Some d -> x_text d <> text.
Lemma first_like_unique pa text i i' : first_like pa text i -> first_like pa text i' -> i = i'.
Proof. intros (c & E & T & H) (c' & E' & T' & H'). destruct (Nat.lt_trichotomy i i') as [L|[->|L]]; [exfalso; exact (H' i c L E T)|reflexivity|exfalso; exact (H i' c' L E' T')]. Qed.
Lemma chosen_like v i : first_like (fst v) (x_text (snd v)) i -> chosen v = Z.of_nat i.
Proof. intros H. unfold chosen. pose proof (find_index_spec (fst v) (x_text (snd v))) as F. destruct (find_index (fst v) (x_text (snd v))) as [k|].
  - f_equal. eapply first_like_unique; [exact F|exact H].
  - exfalso. destruct F as [_ F]. destruct H as (c & E & T & _). exact (F c (nth_error_In _ _ E) T). Qed.
Lemma chosen_first v : (exists c, In c (fst v) /\ x_text c = x_text (snd v)) -> exists i, first_like (fst v) (x_text (snd v)) i.
Proof. intros (c & I & T). pose proof (find_index_spec (fst v) (x_text (snd v))) as F. destruct (find_index (fst v) (x_text (snd v))) as [k|]; [exists k; exact F|]. exfalso. destruct F as [_ F]. exact (F c I T). Qed.

Lemma asked_in program original l v : candidates_for program original -> offers program original -> In v (asked program original l) -> (1 < length (fst v))%nat /\ (exists a, dget program a = Some (fst v)) /\ exists c, In c (fst v) /\ x_text c = x_text (snd v).
Proof. intros Cf Of I. unfold asked in I. apply in_flat_map in I. destruct I as (a & Ia & I). destruct (dget program a) as [pa|] eqn:G; [|destruct I]. destruct (find (fun o => x_addr o =? a) original) as [o|] eqn:E; [|destruct I].
  destruct (x_ignore o) eqn:Ig; cbn [negb andb] in I; [destruct I|]. destruct (1 <? length pa)%nat eqn:L; [|destruct I]. destruct I as [<-|[]]. cbn [fst snd]. split; [lia|]. split; [eauto|]. apply find_some in E. destruct E as [Io Ea]. apply Z.eqb_eq in Ea. subst a. destruct (Of o Io Ig) as (pa1 & c & G1 & Ic & T). assert (pa1 = pa) as -> by congruence. eauto. Qed.
Lemma asked_alike program original original' l : candidates_for program original -> candidates_for program original' -> (forall a, In a l -> In a (dkeys program)) ->
  (forall o o', In o original -> In o' original' -> x_addr o = x_addr o' -> x_ignore o = x_ignore o') -> map fst (asked program original l) = map fst (asked program original' l).
Proof. intros Cf Cf' Kn Hi. unfold asked. induction l as [|a l IH]; [reflexivity|]. cbn [flat_map]. rewrite !map_app, (IH (fun b I => Kn b (or_intror I))). f_equal. destruct (dget program a) as [pa|]; [|reflexivity].
  assert (X : forall os, candidates_for program os -> exists o, find (fun o => x_addr o =? a) os = Some o /\ In o os /\ x_addr o = a).
  { intros os C. assert (I : In a (map x_addr os)) by (apply C, Kn; left; reflexivity). apply in_map_iff in I. destruct I as (o & E & I). destruct (find (fun o => x_addr o =? a) os) as [o'|] eqn:F; [apply find_some in F; destruct F as [F1 F2]; exists o'; split; [reflexivity|split; [exact F1|lia]]|]. pose proof (find_none _ _ F o I) as N. cbn beta in N. lia. }
  destruct (X original Cf) as (o & -> & I & E). destruct (X original' Cf') as (o' & -> & I' & E'). rewrite (Hi o o' I I' ltac:(lia)). destruct (negb (x_ignore o') && (1 <? length pa)%nat); reflexivity. Qed.
Lemma build_any program original : candidates_for program original -> offers program original -> (forall a pa, dget program a = Some pa -> Z.of_nat (length pa) < 2 ^ 32) ->
  let order := asked program original (sort_addresses program (dkeys program)) in
  exists q, build_bits program original = Ok (program, counts_of original, (fold_right Z.add 0 (map width order), q)) /\
    BuilderProps.holds q (finish 0 (map width order)) (total 0 (map (fun v => (width v, chosen v)) order)).
Proof. intros Cf Of Sm order. set (l := sort_addresses program (dkeys program)) in *.
  assert (Kn : forall a, In a l -> In a (dkeys program)) by (intros a Ia; eapply Permutation_in; [apply sort_by_perm|exact Ia]).
  assert (H0 : BuilderProps.holds (bq_new 1) 0 0). { constructor; [lia| |reflexivity]. exists [], 0. cbn. repeat split; try lia; constructor. }
  assert (F : Forall (fun v => (1 < length (fst v))%nat /\ Z.of_nat (length (fst v)) < 2 ^ 32 /\ exists c, In c (fst v) /\ x_text c = x_text (snd v)) order).
  { apply Forall_forall. intros v I. destruct (asked_in program original l v Cf Of I) as (A & (a & B) & C). split; [exact A|]. split; [exact (Sm a _ B)|exact C]. }
  destruct (fold_any order (bq_new 1) 0 0 H0 F 0) as (q & E & H). exists q. rewrite !Z.add_0_l in *. split; [|exact H].
  unfold build_bits, build. fold l. rewrite (bits_loop program original (counts_of original) Cf Of); [| |exact Kn|apply sort_by_sorted].
  - rewrite <- asked_visited by assumption. fold order. rewrite E. reflexivity.
  - unfold l, sort_addresses. rewrite (Permutation_length (sort_by_perm _ _)). unfold dkeys. rewrite map_length. lia. Qed.

(** Two originals get the same solution exactly when, at every ambiguous address, the low
    bits that are kept of the two indices agree. *)
Theorem C50_exactly : forall program original original' l, candidates_for program original -> offers program original -> candidates_for program original' -> offers program original' ->
  (forall o o', In o original -> In o' original' -> x_addr o = x_addr o' -> x_ignore o = x_ignore o') -> in_order program l -> (forall a pa, dget program a = Some pa -> Z.of_nat (length pa) < 2 ^ 32) ->
  let order := asked program original l in let order' := asked program original' l in
  exists m m' size q q', build_bits program original = Ok (program, m, (size, q)) /\ build_bits program original' = Ok (program, m', (size, q')) /\
    (bq_get_bytes q = bq_get_bytes q' <->
     forall j v v' k i i', nth_error order j = Some v -> nth_error order' j = Some v' -> nth_error (kepts 0 (map width order)) j = Some k ->
       first_like (fst v) (x_text (snd v)) i -> first_like (fst v') (x_text (snd v')) i' -> Z.of_nat i mod 2 ^ k = Z.of_nat i' mod 2 ^ k).
Proof. intros program original original' l Cf Of Cf' Of' Hi O Sm.
  assert (l = sort_addresses program (dkeys program)) as ->. { destruct O as [S F]. destruct (sort_order program) as [S' F']. eapply order_unique; [exact S|exact S'|]. intros n. rewrite F, F'. reflexivity. }
  destruct (build_any program original Cf Of Sm) as (q & E & H). destruct (build_any program original' Cf' Of' Sm) as (q' & E' & H'). set (l := sort_addresses program (dkeys program)) in *. cbv zeta in *.
  assert (Kn : forall a, In a l -> In a (dkeys program)) by (intros a Ia; eapply Permutation_in; [apply sort_by_perm|exact Ia]).
  pose proof (asked_alike program original original' l Cf Cf' Kn Hi) as Al. set (order := asked program original l) in *. set (order' := asked program original' l) in *.
  assert (Ew : map width order' = map width order). { unfold width. rewrite <- (map_map fst (fun pa : list xinst => Z.log2 (Z.of_nat (length pa))) order'), <- (map_map fst (fun pa : list xinst => Z.log2 (Z.of_nat (length pa))) order). rewrite Al. reflexivity. }
  assert (Ln : length order' = length order) by (rewrite <- (map_length fst order'), <- Al, map_length; reflexivity).
  exists (counts_of original), (counts_of original'), (fold_right Z.add 0 (map width order)), q, q'. rewrite Ew in E', H'. split; [exact E|]. split; [exact E'|]. rewrite (holds_same _ _ _ _ _ H H').
  assert (Cm : forall vs, map (fun v => (width v, chosen v)) vs = combine (map width vs) (map chosen vs)) by (induction vs as [|v vs IH]; cbn [map combine]; [reflexivity|rewrite IH; reflexivity]). rewrite !Cm, Ew.
  rewrite total_same; [|lia| |rewrite !map_length; reflexivity|rewrite !map_length; exact Ln].
  2: { apply Forall_forall. intros w I. apply in_map_iff in I. destruct I as (v & <- & I). destruct (asked_in program original l v Cf Of I) as (A & (a & B) & _). pose proof (Sm a _ B). unfold width. split; [change 1 with (Z.log2 2); apply Z.log2_le_mono; lia|]. assert (Z.log2 (Z.of_nat (length (fst v))) < 32) by (apply Z.log2_lt_pow2; lia). lia. }
  assert (G : forall vs vs' ks, length ks = length vs -> length vs' = length vs -> (forall v, In v vs \/ In v vs' -> exists i, first_like (fst v) (x_text (snd v)) i) ->
    (Forall2 (fun k p => fst p mod 2 ^ k = snd p mod 2 ^ k) ks (combine (map chosen vs) (map chosen vs')) <-> forall j v v' k i i', nth_error vs j = Some v -> nth_error vs' j = Some v' -> nth_error ks j = Some k -> first_like (fst v) (x_text (snd v)) i -> first_like (fst v') (x_text (snd v')) i' -> Z.of_nat i mod 2 ^ k = Z.of_nat i' mod 2 ^ k)).
  { clear. induction vs as [|v vs IH]; intros [|v' vs'] [|k ks] L1 L2 Fl; try discriminate; cbn [map combine].
    - split; [intros _ [|j]; discriminate|constructor].
    - specialize (IH vs' ks ltac:(cbn in L1; lia) ltac:(cbn in L2; lia)). split.
      + intros X. inversion X as [|? ? ? ? A B]; subst. cbn [fst snd] in A. intros [|j] u u' k' i i' Eu Eu' Ek F F'.
        * cbn [nth_error] in *. assert (u = v) as -> by congruence. assert (u' = v') as -> by congruence. assert (k' = k) as -> by congruence. rewrite <- (chosen_like _ _ F), <- (chosen_like _ _ F'). exact A.
        * cbn [nth_error] in *. refine (proj1 (IH _) B j u u' k' i i' Eu Eu' Ek F F'). intros w [I|I]; apply Fl; [left; right; exact I|right; right; exact I].
      + intros X. constructor.
        * cbn [fst snd]. destruct (Fl v (or_introl (or_introl eq_refl))) as (i & Fi). destruct (Fl v' (or_intror (or_introl eq_refl))) as (i' & Fi'). rewrite (chosen_like _ _ Fi), (chosen_like _ _ Fi'). exact (X 0%nat v v' k i i' eq_refl eq_refl eq_refl Fi Fi').
        * apply IH; [intros w [I|I]; apply Fl; [left; right; exact I|right; right; exact I]|]. intros j. exact (X (S j)). }
  apply G; [|exact Ln|].
  - rewrite kepts_length, map_length. reflexivity.
  - intros v [I|I]; apply chosen_first; [exact (proj2 (proj2 (asked_in program original l v Cf Of I)))|exact (proj2 (proj2 (asked_in program original' l v Cf' Of' I)))]. Qed.
Print Assumptions C50_exactly.
(** Positions 28 to 30 and 30 to 33: of the second index the two lowest bits are kept, not
    four; an index of one bit for three candidates does not tell the first from the third. *)
Example C50_exactly_example : kepts 28 [2; 4; 1] = [2; 2; 1] /\ kept 4 29 = 28 /\
  let p := [(0, [sel 0 1; sel 0 2; sel 0 3])] in
  in_order p [0] /\ kepts 0 (map width (asked p [sel 0 1] [0])) = [1] /\
  first_like [sel 0 1; sel 0 2; sel 0 3] (x_text (sel 0 3)) 2 /\ Z.of_nat 2 mod 2 ^ 1 = Z.of_nat 0 mod 2 ^ 1 /\
  rmap (fun r => bq_get_bytes (snd (snd r))) (build_bits p [sel 0 1]) = Ok [0] /\ rmap (fun r => bq_get_bytes (snd (snd r))) (build_bits p [sel 0 3]) = Ok [0] /\ rmap (fun r => bq_get_bytes (snd (snd r))) (build_bits p [sel 0 2]) = Ok [1].
Proof. split; [reflexivity|]. split; [reflexivity|]. cbv zeta. split; [apply (sort_order [(0, [sel 0 1; sel 0 2; sel 0 3])])|]. split; [reflexivity|]. split.
  - eexists. split; [reflexivity|]. split; [reflexivity|]. intros j d L E. destruct j as [|[|j]]; [| |lia]; cbn in E; injection E as <-; discriminate.
  - split; [reflexivity|]. split; [vm_compute; reflexivity|]. split; vm_compute; reflexivity. Qed.
