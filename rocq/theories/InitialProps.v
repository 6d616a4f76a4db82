(** C136: the initial solution file of a recovery run with packet loss. *)
From Verif Require Import ListLemmas InterleaveSpec FlipModel FlipSpec PacketModel PacketSpec PacketProps.
From Verif Require Import IoModel IoSpec IoProofs IoProps ReportModel ReportSpec ReportProofs InitialModel.
From Coq Require Import ZifyBool ZifyNat Permutation Sorted.
Notation inst := IoModel.inst.

(** The position of an instruction of the program: how many have a lower address. *)
Definition position (fns : list fn) (i : inst) : Z := Z.of_nat (length (filter (fun j => address j <? address i) (concat fns))).
(** Bit [b] of the instruction is among those predicted to be wrong. *)
Definition suspect (w : Z) (errors : list error) (fns : list fn) (i : inst) (b : Z) : Prop :=
  b < 32 /\ predicted w errors (32 * position fns i + b).

(** ** The program handed to the corruptor *)
Definition single (i : inst) : Z * list PacketModel.inst := (address i, [mkInst (encoding i) (address i)]).
Definition sorted_insts (fns : list fn) : list inst := sort_by address (concat fns).
Lemma sorted_in fns i : In i (sorted_insts fns) <-> In i (concat fns).
Proof. split; apply Permutation_in; [|apply Permutation_sym]; apply sort_by_perm. Qed.
Lemma sorted_nodup fns : NoDup (map address (concat fns)) -> NoDup (map address (sorted_insts fns)).
Proof. apply Permutation_NoDup, Permutation_map, Permutation_sym, sort_by_perm. Qed.
Lemma clone_ok l : (forall i, In i l -> fits32 (encoding i)) -> clone l = Ok l.
Proof. unfold clone. induction l as [|i l IH]; intros H; [reflexivity|]. cbn [mapM]. assert (E : caps (encoding i) (address i) = Ok (mkInst (encoding i) (address i))). { specialize (H i (or_introl eq_refl)). unfold fits32 in H. unfold caps. replace ((0 <=? encoding i) && (encoding i <? 2 ^ 32)) with true by lia. reflexivity. }
  rewrite E. cbn [bind i_enc i_addr]. rewrite IH by (intros j Hj; apply H; right; exact Hj). destruct i. reflexivity. Qed.
Lemma clone_bad l : ~ (forall i, In i l -> fits32 (encoding i)) -> clone l = Err OverflowError.
Proof. unfold clone. induction l as [|i l IH]; intros H; [exfalso; apply H; intros i []|]. cbn [mapM]. destruct (caps (encoding i) (address i)) as [c|e] eqn:E.
  - cbn [bind]. rewrite IH; [reflexivity|]. intros X. apply H. intros j [<-|Hj]; [|apply X, Hj]. unfold caps in E. unfold fits32. destruct ((0 <=? encoding i) && (encoding i <? 2 ^ 32)) eqn:F; [lia|discriminate].
  - unfold caps in E. destruct ((0 <=? encoding i) && (encoding i <? 2 ^ 32)); [discriminate|]. injection E as <-. reflexivity. Qed.
Lemma list_to_dict_single l : NoDup (map address l) -> list_to_dict l = map (fun i => (address i, [i])) l.
Proof. unfold list_to_dict. intros N. assert (G : forall d, (forall i, In i l -> ~ In (address i) (dkeys d)) -> fold_left (fun d i => dset d (address i) [i]) l d = d ++ map (fun i => (address i, [i])) l); [|apply (G []); intros i _ []].
  induction l as [|i l IH]; intros d H; [cbn; rewrite app_nil_r; reflexivity|]. inversion N as [|? ? N1 N2]; subst. cbn [fold_left map]. rewrite dset_fresh by (apply H; left; reflexivity). rewrite IH; [rewrite <- app_assoc; reflexivity|exact N2|].
  intros j Hj. unfold dkeys. rewrite map_app, in_app_iff. cbn [map fst In]. intros [X|[X|[]]]; [exact (H j (or_intror Hj) X)|]. apply N1. rewrite X. apply in_map, Hj. Qed.
Lemma to_corrupt_single l : NoDup (map address l) -> to_corrupt l = map single l.
Proof. intros N. unfold to_corrupt. rewrite list_to_dict_single by exact N. rewrite map_map. reflexivity. Qed.
Lemma single_keys l : dkeys (map single l) = map address l.
Proof. unfold dkeys. rewrite map_map. reflexivity. Qed.
Lemma single_good l : NoDup (map address l) -> (forall i, In i l -> fits32 (encoding i)) -> good_program (map single l).
Proof. intros N H. split; [rewrite single_keys; exact N|]. apply Forall_forall. intros kv Hkv. apply in_map_iff in Hkv. destruct Hkv as (i & <- & Hi). cbn [snd single]. constructor; [exact (H i Hi)|constructor]. Qed.
Lemma single_get l i : NoDup (map address l) -> In i l -> dget (map single l) (address i) = Some [mkInst (encoding i) (address i)].
Proof. intros N Hi. apply dget_nodup_in; [rewrite single_keys; exact N|]. apply in_map_iff. exists i. split; [reflexivity|exact Hi]. Qed.
Lemma filter_map_length {A B} (f : A -> B) (p : B -> bool) l : length (filter p (map f l)) = length (filter (fun a => p (f a)) l).
Proof. induction l as [|a l IH]; [reflexivity|]. cbn [map filter]. destruct (p (f a)); cbn [length]; congruence. Qed.
Lemma single_position fns i : In i (concat fns) -> nth_address (map single (sorted_insts fns)) (position fns i) (address i).
Proof. intros Hi. split; [rewrite single_keys; apply in_map, sorted_in, Hi|]. rewrite single_keys, filter_map_length. unfold position. f_equal. apply filter_perm_length, sort_by_perm. Qed.

(** ** What the corruptor gives for an instruction *)
Lemma few_distinct (l : list Z) e : NoDup l -> (forall x, In x l <-> x = e) -> length l = 1%nat.
Proof. intros N H. destruct l as [|a l]; [destruct (proj2 (H e) eq_refl)|]. destruct l as [|b l]; [reflexivity|]. exfalso. pose proof (proj1 (H a) (or_introl eq_refl)). pose proof (proj1 (H b) (or_intror (or_introl eq_refl))). subst. inversion N as [|? ? N1 _]. apply N1. left. reflexivity. Qed.
Lemma two_distinct (l : list Z) a b : In a l -> In b l -> a <> b -> (1 < length l)%nat.
Proof. intros Ha Hb D. destruct l as [|x [|y l]]; cbn [In length] in *; [tauto| |lia]. exfalso. intuition congruence. Qed.
Lemma word_bits x : (forall i, 32 <= i -> Z.testbit x i = false) -> 0 <= x < 2 ^ 32.
Proof. intros H. assert (E : x = x mod 2 ^ 32). { apply Z.bits_inj'. intros n Hn. destruct (Z_lt_le_dec n 32); [rewrite Z.mod_pow2_bits_low by lia; reflexivity|]. rewrite Z.mod_pow2_bits_high by lia. apply H. lia. }
  rewrite E. apply Z.mod_pos_bound. lia. Qed.
Lemma high_bits e i : 0 <= e < 2 ^ 32 -> 32 <= i -> Z.testbit e i = false.
Proof. intros He Hi. rewrite <- (Z.mod_small e (2 ^ 32)) by lia. apply Z.mod_pow2_bits_high. lia. Qed.

Record corrupted_as (w : Z) (errors : list error) (fns : list fn) (p : program) : Prop := {
  co_keys : dkeys p = map address (sorted_insts fns);
  co_list : forall i, In i (concat fns) -> exists l, dget p (address i) = Some l /\ sorted_by_encoding l /\
    (forall x, In x (map i_enc l) <-> same_outside (suspect w errors fns i) (encoding i) x) /\
    ((1 < length l)%nat <-> exists b, 0 <= b /\ suspect w errors fns i b) }.
Lemma corrupts order w words lost fns : 1 <= w <= 32 -> NoDup order -> incl lost order -> lost <> [] -> first_inside order w words lost ->
  NoDup (map address (concat fns)) -> (forall i, In i (concat fns) -> fits32 (encoding i)) ->
  exists errors p, predict_corruption (Z.of_nat (length order)) w words order lost = Ok errors /\
    packet_corrupt (Z.of_nat (length order)) w words order lost (map single (sorted_insts fns)) = Ok p /\ corrupted_as w errors fns p.
Proof. intros Hw No Hl Hne Hf Na He. pose proof (sorted_nodup fns Na) as Ns. assert (G : good_program (map single (sorted_insts fns))) by (apply single_good; [exact Ns|]; intros i Hi; apply He, sorted_in, Hi).
  destruct (C17_predicted_bits_exact order w words lost ltac:(lia) No Hl Hne) as (errors & Ee & Pr).
  destruct (proj1 (C18_keeps_program_partial order w words lost _ Hw No Hl Hne G) Hf) as (p & Ep & Kp & Lp). exists errors, p. split; [exact Ee|]. split; [exact Ep|]. constructor; [rewrite Kp; apply single_keys|].
  intros i Hi. pose proof (single_get (sorted_insts fns) i Ns (proj2 (sorted_in fns i) Hi)) as Gi. pose proof (single_position fns i Hi) as Pi.
  destruct (Lp _ _ Gi) as (l & El & Sl & _). destruct (C19_candidates order w words lost _ _ _ _ _ Hw No Hl Hne G Hf Pi Gi) as (errors' & p' & l' & Ee' & Ep' & El' & _ & In' & _).
  rewrite Ee in Ee'. injection Ee' as <-. rewrite Ep in Ep'. injection Ep' as <-. rewrite El in El'. injection El' as <-. exists l. split; [exact El|]. split; [exact Sl|]. split; [exact In'|].
  assert (Fe : 0 <= encoding i < 2 ^ 32) by (apply He, Hi). split.
  - intros L2. assert (Dec : (exists b, 0 <= b < 32 /\ existsb (fun e => match e with (word, bit, None) => (32 * word + bit <=? 32 * position fns i + b) && (32 * position fns i + b <? 32 * word + bit + w) | (word, bit, Some n) => (32 * word + bit <=? 32 * position fns i + b) && (32 * position fns i + b <? 32 * word + bit + n) end) errors = true) \/
      forall b, 0 <= b < 32 -> existsb (fun e => match e with (word, bit, None) => (32 * word + bit <=? 32 * position fns i + b) && (32 * position fns i + b <? 32 * word + bit + w) | (word, bit, Some n) => (32 * word + bit <=? 32 * position fns i + b) && (32 * position fns i + b <? 32 * word + bit + n) end) errors = false).
    { match goal with |- (exists b, _ /\ ?F b = true) \/ _ => idtac | _ => idtac end.
      assert (A : forall (f : Z -> bool) n, (exists b, 0 <= b < Z.of_nat n /\ f b = true) \/ (forall b, 0 <= b < Z.of_nat n -> f b = false)).
      { intros f n. induction n as [|n [(b & Hb & E)|IH]]; [right; intros; lia|left; exists b; split; [lia|exact E]|]. destruct (f (Z.of_nat n)) eqn:E; [left; exists (Z.of_nat n); split; [lia|exact E]|]. right. intros b Hb. destruct (Z.eq_dec b (Z.of_nat n)) as [->|D]; [exact E|apply IH; lia]. }
      apply (A _ 32%nat). }
    destruct Dec as [(b & Hb & E)|Dec].
    + exists b. split; [lia|]. split; [lia|]. apply existsb_exists in E. destruct E as ([[wd bt] [n|]] & Her & E); eexists; (split; [exact Her|]); cbn [error_bits]; lia.
    + exfalso. assert (None_ : forall b, 0 <= b -> ~ suspect w errors fns i b).
      { intros b Hb [B32 (er & Her & Eb)]. specialize (Dec b ltac:(lia)). rewrite <- not_true_iff_false in Dec. apply Dec. apply existsb_exists. exists er. split; [exact Her|]. destruct er as [[wd bt] [n|]]; cbn [error_bits] in Eb; lia. }
      assert (X : NoDup (map i_enc l)).
      { apply (C20_no_repeats_partial order w words lost _ _ _ _ _ _ _ Hw No Hl Hne G Ep Pi Gi El). intros (t & A1 & A2 & Hc & Hi2). apply (None_ 0 ltac:(lia)). split; [lia|]. apply Pr. exists t. split; [exact A1|]. unfold reported. replace (chunk_bit w t + w <? 32) with false by lia.
        unfold chunk_bit, chunk_word in *. rewrite <- Hi2. pose proof (Z.div_mod (w * t) 32 ltac:(lia)). pose proof (Z.div_mod (w * (t + 1)) 32 ltac:(lia)). pose proof (Z.mod_pos_bound (w * (t + 1)) 32 ltac:(lia)). pose proof (Z.mod_pos_bound (w * t) 32 ltac:(lia)). replace (w * (t + 1)) with (w * t + w) in * by ring. lia. }
      assert (L1 : length (map i_enc l) = 1%nat). { apply (few_distinct _ (encoding i)); [exact X|]. intros x. rewrite In'. split; [|intros -> n _ _; reflexivity]. intros S. apply Z.bits_inj'. intros n Hn. apply S; [exact Hn|]. apply None_, Hn. }
      rewrite map_length in L1. lia.
  - intros (b & Hb & Sb). rewrite <- (map_length i_enc). apply (two_distinct _ (encoding i) (Z.lxor (encoding i) (2 ^ b))).
    + apply In'. intros n _ _. reflexivity.
    + apply In'. intros n Hn D. rewrite Z.lxor_spec, Z.pow2_bits_eqb by lia. destruct (Z.eqb_spec b n) as [->|]; [contradiction|]. apply xorb_false_r.
    + intros X. apply (f_equal (fun z => Z.testbit z b)) in X. rewrite Z.lxor_spec, Z.pow2_bits_true in X by lia. destruct (Z.testbit (encoding i) b); discriminate. Qed.

(** ** The report does not move fresh candidates *)
Lemma fresh_sorted text l : sorted_if (map (fresh text) l) = map (fresh text) l.
Proof. unfold sorted_if. destruct contested; [|reflexivity]. apply sort_best_id. induction l as [|c l IH]; [constructor|]. cbn [map]. constructor; [exact IH|]. apply Forall_forall. intros d Hd. apply in_map_iff in Hd. destruct Hd as (e & <- & _). unfold down. cbn [p_score fresh]. apply Qle_refl. Qed.
Lemma dict_to_list_eq {A} (p : dict A) : dict_to_list p = flat_map (fun k => match dget p k with Some v => [v] | None => [] end) (sort_by (fun k => k) (dkeys p)).
Proof. reflexivity. Qed.
Lemma put_same (p : dict (list pcand)) : NoDup (dkeys p) -> put_lists p (dict_to_list p) = p.
Proof. intros N. unfold put_lists, dict_to_list. set (ks := sort_by (fun k => k) (dkeys p)). assert (H : forall k, In k ks -> In k (dkeys p)) by (intros k; apply Permutation_in, sort_by_perm). clearbody ks.
  induction ks as [|k ks IH]; [reflexivity|]. cbn [flat_map]. destruct (proj1 (dget_some_in p k) (H k (or_introl eq_refl))) as (v & E). rewrite E. cbn [app combine fold_left fst snd].
  replace (dset p k v) with p; [apply IH; intros j Hj; apply H; right; exact Hj|]. clear - E. induction p as [|[j u] p IH]; [discriminate|]. cbn [dget dset] in *. destruct (Z.eqb_spec k j) as [->|D]; [congruence|]. f_equal. apply IH, E. Qed.
Lemma dict_to_list_length {A} (p : dict A) : length (dict_to_list p) = length p.
Proof. unfold dict_to_list. rewrite <- (map_length fst p). fold (dkeys p). rewrite <- (Permutation_length (sort_by_perm (fun k => k) (dkeys p))). assert (H : forall k, In k (sort_by (fun k => k) (dkeys p)) -> In k (dkeys p)) by (intros k; apply Permutation_in, sort_by_perm).
  induction (sort_by (fun k => k) (dkeys p)) as [|k ks IH]; [reflexivity|]. cbn [flat_map length]. destruct (proj1 (dget_some_in p k) (H k (or_introl eq_refl))) as (v & E). rewrite E. cbn [app length]. f_equal. apply IH. intros j Hj. apply H. right. exact Hj. Qed.
Lemma dict_to_list_in {A} (p : dict A) v : NoDup (dkeys p) -> (In v (dict_to_list p) <-> exists k, In (k, v) p).
Proof. intros N. unfold dict_to_list. rewrite in_flat_map. split.
  - intros (k & _ & H). destruct (dget p k) as [u|] eqn:E; [|destruct H]. destruct H as [<-|[]]. exists k. apply dget_in, E.
  - intros (k & H). exists k. split; [eapply Permutation_in; [apply Permutation_sym, sort_by_perm|]; apply (in_map fst) in H; exact H|]. rewrite (dget_nodup_in p k v N H). left. reflexivity. Qed.
Lemma number_zero {A} f (l : list A) : number f l = 0 <-> forall x, In x l -> f x = false.
Proof. unfold number. split.
  - intros H x Hx. destruct (f x) eqn:E; [|reflexivity]. assert (Y : In x (filter f l)) by (apply filter_In; auto). destruct (filter f l); [destruct Y|cbn [length] in H; lia].
  - intros H. rewrite filter_false by exact H. reflexivity. Qed.
Lemma report_fresh text os (q : program) : NoDup (dkeys q) -> length os = length q -> let p0 := map (fun kv => (fst kv, map (fresh text) (snd kv))) q in
  ((forall k l, In (k, l) q -> (length l <= 1)%nat) -> snd (report_on Corrupted_report os ([], p0)) = Err ZeroDivisionError) /\
  ((exists k l, In (k, l) q /\ (1 < length l)%nat) -> snd (report_on Corrupted_report os ([], p0)) = Ok p0).
Proof. intros N L p0. assert (K : dkeys p0 = dkeys q) by (unfold p0, dkeys; rewrite map_map; reflexivity). assert (N0 : NoDup (dkeys p0)) by (rewrite K; exact N). unfold report_on. cbn [snd].
  destruct (print_report_cases os (dict_to_list p0)) as (_ & B & C & D). assert (Ll : length (dict_to_list p0) = length os) by (rewrite dict_to_list_length; unfold p0; rewrite map_length; lia).
  assert (Same : snd (print_report os (dict_to_list p0)) = dict_to_list p0).
  { rewrite D by lia. rewrite <- Ll, firstn_all, skipn_all, app_nil_r. erewrite map_ext_in; [apply map_id|]. intros v Hv. apply (dict_to_list_in p0 v N0) in Hv. destruct Hv as (k & Hv). unfold p0 in Hv. apply in_map_iff in Hv. destruct Hv as ([k' l] & E & _). injection E as _ <-. apply fresh_sorted. }
  assert (Sn : forall v, In v (dict_to_list p0) <-> In v (map snd (combine os (dict_to_list p0)))). { intros v. clear - Ll. assert (E : map snd (combine os (dict_to_list p0)) = dict_to_list p0); [|rewrite E; tauto]. revert os Ll. induction (dict_to_list p0) as [|x xs IH]; intros [|o os] Ll; cbn in *; try lia; [reflexivity|]. f_equal. apply IH. lia. }
  split.
  - intros H. specialize (B ltac:(lia)). destruct (print_report os (dict_to_list p0)) as [r vs]. cbn [fst snd] in *. rewrite B; [reflexivity|]. apply number_zero. intros [o v] Hx. cbn [snd]. apply (in_map snd) in Hx. apply Sn in Hx. cbn [snd] in Hx. apply (dict_to_list_in p0 v N0) in Hx. destruct Hx as (k & Hx). unfold p0 in Hx. apply in_map_iff in Hx. destruct Hx as ([k' l] & E & Hkl). injection E as <- <-. specialize (H _ _ Hkl). unfold contested. rewrite map_length. lia.
  - intros (k & l & Hkl & H). specialize (C ltac:(lia)). destruct (print_report os (dict_to_list p0)) as [r vs]. cbn [fst snd] in *. subst vs.
    destruct C as (t & -> & _); [|cbn [rmap bind]; f_equal; apply put_same, N0]. intros Z0. rewrite number_zero in Z0. assert (X : In (map (fresh text) l) (dict_to_list p0)) by (apply (dict_to_list_in p0 _ N0); exists k; unfold p0; apply in_map_iff; exists (k, l); split; [reflexivity|exact Hkl]).
    apply Sn, in_map_iff in X. destruct X as (ov & E & Hov). specialize (Z0 ov Hov). rewrite E in Z0. unfold contested in Z0. rewrite map_length in Z0. lia. Qed.

(** ** The file *)
Definition file_program (p : program) : dict (list inst) := map (fun kv => (fst kv, map (fun c => (i_enc c, fst kv)) (snd kv))) p.
Lemma to_write_fresh text (p : program) : to_write (map (fun kv => (fst kv, map (fresh text) (snd kv))) p) = file_program p.
Proof. unfold to_write, file_program. rewrite map_map. apply map_ext. intros [k l]. cbn [fst snd]. rewrite map_map. reflexivity. Qed.
Lemma file_keys p : dkeys (file_program p) = dkeys p.
Proof. unfold file_program, dkeys. rewrite map_map. reflexivity. Qed.
Lemma original_at l i : NoDup (map address l) -> In i l -> dget (list_to_dict l) (address i) = Some [i].
Proof. intros N Hi. rewrite list_to_dict_single by exact N. apply dget_nodup_in; [unfold dkeys; rewrite map_map; exact N|]. apply in_map_iff. exists i. split; [reflexivity|exact Hi]. Qed.

(** How the run goes up to the initial solution file. *)
Lemma initial_cases text order w words lost fns : 1 <= w <= 32 -> NoDup order -> incl lost order -> lost <> [] -> first_inside order w words lost ->
  NoDup (map address (concat fns)) -> (forall i, In i (concat fns) -> fits32 (encoding i)) ->
  exists errors p, predict_corruption (Z.of_nat (length order)) w words order lost = Ok errors /\
    packet_corrupt (Z.of_nat (length order)) w words order lost (to_corrupt (sorted_insts fns)) = Ok p /\ corrupted_as w errors fns p /\
    let run := initial_solution text (Z.of_nat (length order)) w words order lost fns in
    ((exists i b, In i (concat fns) /\ 0 <= b /\ suspect w errors fns i b) -> run = Ok (write_binary_list (sorted_insts fns) (file_program p))) /\
    (~ (exists i b, In i (concat fns) /\ 0 <= b /\ suspect w errors fns i b) -> run = Err ZeroDivisionError).
Proof. intros Hw No Hl Hne Hf Na He. destruct (corrupts order w words lost fns Hw No Hl Hne Hf Na He) as (errors & p & Ee & Ep & Co). exists errors, p. split; [exact Ee|]. pose proof (sorted_nodup fns Na) as Ns. rewrite to_corrupt_single by exact Ns. split; [exact Ep|]. split; [exact Co|].
  cbv zeta. unfold initial_solution. change (fst (functions_to_list fns)) with (sorted_insts fns). rewrite clone_ok by (intros i Hi; apply He, sorted_in, Hi). cbn [bind]. rewrite to_corrupt_single by exact Ns. rewrite Ep. cbn [bind]. destruct Co as [K L].
  assert (Np : NoDup (dkeys p)) by (rewrite K; exact Ns). assert (Lp : length (map (original text) (sorted_insts fns)) = length p) by (rewrite map_length, <- (map_length address), <- K; unfold dkeys; apply map_length).
  destruct (report_fresh text _ p Np Lp) as [R0 R1]. split.
  - intros (i & b & Hi & Hb & Sb). rewrite R1; [cbn [bind]; rewrite to_write_fresh; reflexivity|]. destruct (L i Hi) as (l & El & _ & _ & C). exists (address i), l. split; [apply dget_in, El|]. apply C. eauto.
  - intros H. rewrite R0; [reflexivity|]. intros k l Hkl. assert (Hk : In k (map address (sorted_insts fns))) by (rewrite <- K; apply (in_map fst) in Hkl; exact Hkl). apply in_map_iff in Hk. destruct Hk as (i & <- & Hi). apply sorted_in in Hi. destruct (L i Hi) as (l' & El & _ & _ & C).
    rewrite (dget_nodup_in p _ _ Np Hkl) in El. injection El as <-. destruct (le_lt_dec (length l) 1) as [Le|Lt]; [exact Le|]. exfalso. apply H. destruct (proj1 C Lt) as (b & Hb & Sb). eauto. Qed.

(** When the initial solution is written: exactly if some bit of the program is
    predicted to be wrong; otherwise the report before it fails. *)
Theorem C136_initial_written : forall text order w words lost fns,
  1 <= w <= 32 -> NoDup order -> incl lost order -> lost <> [] -> NoDup (map address (concat fns)) -> (forall i, In i (concat fns) -> fits32 (encoding i)) ->
  let run := initial_solution text (Z.of_nat (length order)) w words order lost fns in
  (~ first_inside order w words lost -> run = Err IndexError) /\
  (first_inside order w words lost -> exists errors, predict_corruption (Z.of_nat (length order)) w words order lost = Ok errors /\
     ((exists i b, In i (concat fns) /\ 0 <= b /\ suspect w errors fns i b) ->
      (* addresses and counts that fit the format *)
      (forall i, In i (concat fns) -> fits32 (address i)) -> Z.of_nat (length (concat fns)) < 2 ^ 32 ->
      (forall p a l, packet_corrupt (Z.of_nat (length order)) w words order lost (to_corrupt (fst (functions_to_list fns))) = Ok p -> dget p a = Some l -> Z.of_nat (length l) < 2 ^ 32) ->
      exists file, run = Ok (file, Ok tt)) /\
     (~ (exists i b, In i (concat fns) /\ 0 <= b /\ suspect w errors fns i b) -> run = Err ZeroDivisionError)).
Proof. intros text order w words lost fns Hw No Hl Hne Na He run. split.
  - intros Hf. pose proof (sorted_nodup fns Na) as Ns. assert (G : good_program (map single (sorted_insts fns))) by (apply single_good; [exact Ns|]; intros i Hi; apply He, sorted_in, Hi).
    unfold run, initial_solution. change (fst (functions_to_list fns)) with (sorted_insts fns). rewrite clone_ok by (intros i Hi; apply He, sorted_in, Hi). cbn [bind]. rewrite to_corrupt_single by exact Ns. rewrite (proj2 (C18_keeps_program_partial order w words lost _ Hw No Hl Hne G) Hf). reflexivity.
  - intros Hf. destruct (initial_cases text order w words lost fns Hw No Hl Hne Hf Na He) as (errors & p & Ee & Ep & [K L] & R1 & R0). exists errors. split; [exact Ee|]. split; [|exact R0]. intros S Fa Ln Lc. unfold run. rewrite (R1 S).
    pose proof (sorted_nodup fns Na) as Ns. assert (Np : NoDup (dkeys p)) by (rewrite K; exact Ns). unfold write_binary_list.
    assert (W : Forall (writable (list_to_dict (sorted_insts fns))) (file_program p)).
    { apply Forall_forall. intros kv Hkv. unfold file_program in Hkv. apply in_map_iff in Hkv. destruct Hkv as ([k l] & <- & Hkl). cbn [fst snd]. assert (Hk : In k (map address (sorted_insts fns))) by (rewrite <- K; apply (in_map fst) in Hkl; exact Hkl).
      apply in_map_iff in Hk. destruct Hk as (i & <- & Hi). pose proof (proj1 (sorted_in fns i) Hi) as Hi'. destruct (L i Hi') as (l' & El & _ & In' & _). rewrite (dget_nodup_in p _ _ Np Hkl) in El. injection El as <-.
      apply C47_writable.
      - apply Fa, Hi'.
      - intros c Hc. apply in_map_iff in Hc. destruct Hc as (d & <- & Hd). unfold encoding at 1. cbn [fst]. apply word_bits. intros n Hn. specialize (He i Hi'). assert (X : same_outside (suspect w errors fns i) (encoding i) (i_enc d)) by (apply In', in_map, Hd). rewrite (X n ltac:(lia)); [apply high_bits; [exact He|exact Hn]|]. intros [B _]. lia.
      - rewrite map_length. eapply Lc; [exact Ep|]. apply (dget_nodup_in p _ _ Np Hkl).
      - exists i, []. split; [apply original_at; assumption|]. rewrite map_map. unfold encoding at 2. cbn [fst]. apply In'. intros n _ _. reflexivity. }
    assert (Lp : Z.of_nat (length (file_program p)) < 2 ^ 32). { unfold file_program. rewrite map_length, <- (map_length fst p). fold (dkeys p). rewrite K, map_length. unfold sorted_insts. rewrite (Permutation_length (sort_by_perm address (concat fns))). exact Ln. }
    destruct (C45_round_trip _ _ ltac:(rewrite file_keys; exact Np) W Lp) as (file & _ & _ & E & _). exists file. f_equal. exact E. Qed.
Print Assumptions C136_initial_written.

Lemma nth_keys {A B} (p : dict A) (q : dict B) : length q = length p -> (forall n kv, nth_error p n = Some kv -> exists kv', nth_error q n = Some kv' /\ fst kv' = fst kv) -> dkeys q = dkeys p.
Proof. revert q. induction p as [|kv p IH]; intros [|kv' q] L H; cbn [length] in L; try lia; [reflexivity|]. cbn [dkeys map]. f_equal.
  - destruct (H 0%nat kv eq_refl) as (k & E & X). cbn in E. congruence.
  - apply IH; [lia|]. intros n x Hx. exact (H (S n) x Hx). Qed.

(** Reading the file back: the original program exactly, and for each instruction the
    encodings up to its own that differ from it in suspect bits only, ascending. *)
Theorem C136_initial_solution : forall text order w words lost fns file,
  1 <= w <= 32 -> NoDup order -> incl lost order -> lost <> [] -> first_inside order w words lost ->
  NoDup (map address (concat fns)) -> (forall i, In i (concat fns) -> fits32 (encoding i)) ->
  initial_solution text (Z.of_nat (length order)) w words order lost fns = Ok (file, Ok tt) ->
  exists errors original program, predict_corruption (Z.of_nat (length order)) w words order lost = Ok errors /\ read file = Ok (original, program) /\
    (forall a, In a (dkeys original) <-> In a (map address (concat fns))) /\ (forall a, In a (dkeys program) <-> In a (map address (concat fns))) /\
    forall i, In i (concat fns) -> dget original (address i) = Some [i] /\
      exists l, dget program (address i) = Some l /\ (forall c, In c l -> address c = address i) /\ StronglySorted Z.le (map encoding l) /\ last l i = i /\
        forall x, In x (map encoding l) <-> x <= encoding i /\ same_outside (suspect w errors fns i) (encoding i) x.
Proof. intros text order w words lost fns file Hw No Hl Hne Hf Na He E. destruct (initial_cases text order w words lost fns Hw No Hl Hne Hf Na He) as (errors & p & Ee & Ep & [K L] & R1 & R0).
  pose proof (sorted_nodup fns Na) as Ns. assert (Np : NoDup (dkeys p)) by (rewrite K; exact Ns).
  assert (S : ~ ~ exists i b, In i (concat fns) /\ 0 <= b /\ suspect w errors fns i b) by (intros X; specialize (R0 X); congruence).
  assert (E' : write_binary (list_to_dict (sorted_insts fns)) (file_program p) = (file, Ok tt)).
  { destruct (write_binary (list_to_dict (sorted_insts fns)) (file_program p)) as [f r] eqn:Ew. assert (D : {(f, r) = (file, Ok tt)} + {(f, r) <> (file, Ok tt)}). { destruct (list_eq_dec Z.eq_dec f file) as [->|N]; [|right; congruence]. destruct r as [[]|e]; [left; reflexivity|right; congruence]. }
    destruct D as [D|D]; [exact D|]. exfalso. apply S. intros X. specialize (R1 X). unfold write_binary_list in R1. rewrite Ew, E in R1. apply D. congruence. }
  assert (WL : Forall (writable (list_to_dict (sorted_insts fns))) (file_program p) /\ Z.of_nat (length (file_program p)) < 2 ^ 32).
  { unfold write_binary in E'. apply before_ok in E'. destruct E' as (b1 & b2 & u1 & P1 & P2 & _). apply before_ok in P2. destruct P2 as (b3 & b4 & u2 & P3 & P4 & _). split; [eapply write_entries_inv; exact P4|]. destruct (put_cases 4 (Z.of_nat (length (file_program p)))) as [[X _]|[_ X]]; [change (8 * Z.of_nat 4) with 32 in X; lia|]. rewrite X in P3. discriminate. }
  destruct WL as [W Lp]. destruct (C45_round_trip _ _ ltac:(rewrite file_keys; exact Np) W Lp) as (file' & original & program & E2 & Rd & L1 & L2 & Back). rewrite E' in E2. injection E2 as <-.
  exists errors, original, program. split; [exact Ee|]. split; [exact Rd|].
  assert (K1 : dkeys original = map address (sorted_insts fns)). { rewrite <- K, <- file_keys. apply nth_keys; [exact L1|]. intros n kv Hn. destruct (Back n kv Hn) as (kvo & kvp & A & _ & (pre & o' & post & _ & _ & ->)). eexists. split; [exact A|reflexivity]. }
  assert (K2 : dkeys program = map address (sorted_insts fns)). { rewrite <- K, <- file_keys. apply nth_keys; [exact L2|]. intros n kv Hn. destruct (Back n kv Hn) as (kvo & kvp & _ & A & (pre & o' & post & _ & -> & _)). eexists. split; [exact A|reflexivity]. }
  assert (Ik : forall a, In a (map address (sorted_insts fns)) <-> In a (map address (concat fns))) by (intros a; rewrite !in_map_iff; split; intros (i & X & Y); exists i; (split; [exact X|apply sorted_in, Y])).
  split; [rewrite K1; exact Ik|]. split; [rewrite K2; exact Ik|].
  intros i Hi. destruct (L i Hi) as (l & El & Sl & In' & _). assert (Hp : In (address i, map (fun c => (i_enc c, address i)) l) (file_program p)) by (unfold file_program; apply in_map_iff; exists (address i, l); split; [reflexivity|apply dget_in, El]).
  apply In_nth_error in Hp. destruct Hp as (n & Hn). destruct (Back n _ Hn) as (kvo & kvp & Ao & Apr & (pre & o' & post & (o & others & Go & Sp & Eo & Pre) & -> & ->)). cbn [fst snd] in *.
  rewrite (original_at _ i Ns (proj2 (sorted_in fns i) Hi)) in Go. injection Go as <- <-.
  assert (Ad : forall c, In c (pre ++ o' :: post) -> address c = address i) by (rewrite <- Sp; intros c Hc; apply in_map_iff in Hc; destruct Hc as (d & <- & _); reflexivity).
  assert (o' = i) as ->. { specialize (Ad o' ltac:(apply in_app_iff; right; left; reflexivity)). destruct o', i. unfold encoding, address in *. cbn [fst snd] in *. congruence. }
  split. { rewrite (dget_nodup_in original (address i) [(encoding i, address i)]); [destruct i; reflexivity|rewrite K1; exact Ns|eapply nth_error_In, Ao]. }
  exists (map (fun c => (encoding c, address i)) (pre ++ [i])). split; [apply dget_nodup_in; [rewrite K2; exact Ns|eapply nth_error_In, Apr]|].
  split; [intros c Hc; apply in_map_iff in Hc; destruct Hc as (d & <- & _); reflexivity|]. rewrite map_map. change (fun x : inst => encoding (encoding x, address i)) with encoding.
  assert (Enc : map i_enc l = map encoding pre ++ encoding i :: map encoding post). { change (encoding i :: map encoding post) with (map encoding (i :: post)). rewrite <- map_app, <- Sp, map_map. reflexivity. }
  assert (Sr : StronglySorted Z.le (map encoding pre ++ encoding i :: map encoding post)). { rewrite <- Enc. clear - Sl. induction Sl as [|c l S IH F]; [constructor|]. cbn [map]. constructor; [exact IH|]. rewrite Forall_forall in *. intros y Hy. apply in_map_iff in Hy. destruct Hy as (d & <- & Hd). apply F, Hd. }
  clear - In' Enc Sr. rewrite map_app. cbn [map]. split.
  { clear - Sr. induction (map encoding pre) as [|a m IH]; cbn [app] in *; [repeat constructor|]. inversion Sr as [|? ? S F]; subst. constructor; [apply IH, S|]. rewrite Forall_forall in *. intros y Hy. apply F. apply in_app_iff in Hy. apply in_app_iff. cbn [In] in *. intuition. }
  split. { rewrite map_app. cbn [map]. rewrite last_last. destruct i. reflexivity. }
  intros x. rewrite <- In', Enc. clear - Sr. rewrite !in_app_iff. cbn [In]. 
  assert (B : (forall y, In y (map encoding pre) -> y <= encoding i) /\ (forall y, In y (map encoding post) -> encoding i <= y)). { induction (map encoding pre) as [|a m IH]; cbn [app] in Sr; inversion Sr as [|? ? S F]; subst; rewrite Forall_forall in F; [split; [intros y []|exact F]|]. destruct (IH S) as [I1 I2]. split; [|exact I2]. intros y [<-|Hy]; [|apply I1, Hy]. apply F. apply in_app_iff. right. left. reflexivity. }
  destruct B as [B1 B2]. split.
  - intros [H|[H|[]]]; [split; [apply B1, H|left; exact H]|]. subst x. split; [lia|right; left; reflexivity].
  - intros [Le [H|[H|H]]]; [left; exact H|right; left; exact H|]. specialize (B2 x H). right. left. lia. Qed.
Print Assumptions C136_initial_solution.

Example C136_example : let fns := [[(0xe1a00000, 0x1004); (0x1afffff7, 0x1008)]; [(0xe5901000, 0x1000)]] in
  let run := initial_solution (fun e _ => e) 16 2 3 (zrange 0 16) [1] fns in
  (first_inside (zrange 0 16) 2 3 [1] /\ NoDup (map address (concat fns)) /\ position fns (0x1afffff7, 0x1008) = 2) /\
  (exists file, run = Ok (file, Ok tt) /\ length file = 52%nat /\
    read file = Ok ([(0x1000, [(0xe5901000, 0x1000)]); (0x1004, [(0xe1a00000, 0x1004)]); (0x1008, [(0x1afffff7, 0x1008)])],
      [(0x1000, [(0xe5901000, 0x1000)]); (0x1004, [(0xe1a00000, 0x1004)]); (0x1008, [(0x1afffff3, 0x1008); (0x1afffff7, 0x1008)])])) /\
  (* only the top bit of the only instruction is lost: nothing is written *)
  initial_solution (fun e _ => e) 64 1 3 (zrange 0 64) [31] [[(1, 0)]] = Err ZeroDivisionError.
Proof. split; [|split].
  - split; [exists 1; split; [vm_compute; split; [discriminate|reflexivity]|split; [reflexivity|lia]]|]. split; [|reflexivity]. vm_compute. repeat constructor; cbn [In]; intuition discriminate.
  - eexists. split; [vm_compute; reflexivity|]. split; vm_compute; reflexivity.
  - vm_compute. reflexivity. Qed.
