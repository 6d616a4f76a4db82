From Verif Require Import ListLemmas BitsSpec BitsProofs QueueModel InterleaveModel InterleaveSpec InterleaveProofs
  FlipModel FlipSpec FlipProofs PacketModel PacketSpec PredictProofs.
From Coq Require Import ZifyBool ZifyNat Permutation Sorted.

(** ** One address *)
Definition spread (tuples : list (Z * Z)) (insts : list inst) : list inst :=
  match insts with
  | [] => []
  | f :: _ => flat_map (fun i => map (fun c => mkInst c (i_addr f)) (allflips (tuple_bits tuples) [i_enc i])) insts
  end.

Definition words (l : list inst) : Prop := Forall (fun i => 0 <= i_enc i < 2 ^ 32) l.

Lemma flips_words tuples e x : Forall valid_range tuples -> 0 <= e < 2 ^ 32 -> In x (allflips (tuple_bits tuples) [e]) -> 0 <= x < 2 ^ 32.
Proof. intros V He Hx. apply allflips_in in Hx; [|apply tuple_bits_nonneg, V]. destruct Hx as (e0 & [<-|[]] & S).
  apply bits_bound; [lia|]. intros i Hi. rewrite S.
  - refine (proj1 (bits_bound _ _ _) He i Hi). lia.
  - lia.
  - rewrite tuple_bits_in. intros (t & Ht & B). rewrite Forall_forall in V. destruct (V t Ht). lia. Qed.

Lemma spread_words tuples insts : Forall valid_range tuples -> words insts -> words (spread tuples insts).
Proof. intros V W. unfold spread. destruct insts as [|f insts]; [constructor|].
  apply Forall_forall. intros j Hj. apply in_flat_map in Hj. destruct Hj as (i & Hi & Hj).
  apply in_map_iff in Hj. destruct Hj as (c & <- & Hc). cbn [i_enc]. unfold words in W. rewrite Forall_forall in W.
  eapply flips_words; [exact V|apply (W i Hi)|exact Hc]. Qed.

Lemma corrupt_address_spec tuples a prog insts : Forall valid_range tuples -> dget prog a = Some insts -> words insts ->
  corrupt_address tuples a prog = Ok (dset prog a (spread tuples insts)).
Proof. intros V D W. unfold corrupt_address, dget_r. rewrite D. cbn [bind].
  assert (G : forall f rest l acc, insts = f :: rest -> incl l insts ->
    foldM (fun acc i => let* cs := corrupt_all_bits_tuples tuples (i_enc i) in
        foldM (fun acc c => let* first := nth_r insts 0 in let* n := caps c (i_addr first) in Ok (acc ++ [n])) cs acc) l acc =
    Ok (acc ++ flat_map (fun i => map (fun c => mkInst c (i_addr f)) (allflips (tuple_bits tuples) [i_enc i])) l)).
  { intros f rest l acc E. revert acc. induction l as [|i l IH]; intros acc Hl; cbn [foldM flat_map]; [rewrite app_nil_r; reflexivity|].
    rewrite tuples_flips by exact V. cbn [bind].
    assert (Wi : 0 <= i_enc i < 2 ^ 32) by (unfold words in W; rewrite Forall_forall in W; apply W, Hl; left; reflexivity).
    assert (G2 : forall cs acc, (forall c, In c cs -> 0 <= c < 2 ^ 32) ->
      foldM (fun acc c => let* first := nth_r insts 0 in let* n := caps c (i_addr first) in Ok (acc ++ [n])) cs acc =
      Ok (acc ++ map (fun c => mkInst c (i_addr f)) cs)).
    { induction cs as [|c cs IHc]; intros acc' Hc; cbn [foldM map]; [rewrite app_nil_r; reflexivity|].
      assert (HN : nth_r insts 0 = Ok f) by (rewrite E; reflexivity). rewrite HN at 1. cbn [bind]. unfold caps at 1.
      pose proof (Hc c (or_introl eq_refl)). replace ((0 <=? c) && (c <? 2 ^ 32)) with true by lia. cbn [bind].
      rewrite IHc by (intros; apply Hc; right; assumption). rewrite <- app_assoc. reflexivity. }
    rewrite G2 by (intros c Hc; eapply flips_words; eassumption). cbn [bind].
    rewrite IH by (intros x Hx; apply Hl; right; exact Hx). rewrite <- app_assoc. reflexivity. }
  destruct insts as [|f rest]; [reflexivity|]. rewrite (G f rest) by (try reflexivity; apply incl_refl). cbn [bind app]. reflexivity. Qed.

(** ** The loop, error by error *)
Definition flush (addrs : list Z) (current : Z) (tuples : list (Z * Z)) (prog : program) : result (list (Z * Z) * program) :=
  if negb (Nat.eqb (length tuples) 0) && (current <? Z.of_nat (length addrs)) then
    let* address := nth_r addrs (Z.to_nat current) in
    let* p := corrupt_address tuples address prog in
    Ok ([], p)
  else Ok (tuples, prog).

Fixpoint go (w : Z) (addrs : list Z) (es : list error) (current : Z) (tuples : list (Z * Z)) (prog : program) : result program :=
  match es with
  | [] => let* (_, p) := flush addrs current tuples prog in Ok p
  | e :: es' =>
      if current =? e_word e then go w addrs es' current (tuples ++ [error_range w e]) prog
      else let* (t, p) := flush addrs current tuples prog in go w addrs es' (e_word e) (t ++ [error_range w e]) p
  end.

Lemma loop_go w addrs errors : forall es pre e current tuples prog, errors = pre ++ es -> hd e es = e ->
  corrupt_loop (S (length es)) (length pre) w errors addrs e current tuples prog = go w addrs es current tuples prog.
Proof. induction es as [|e0 es IH]; intros pre e current tuples prog E He; cbn [corrupt_loop length go].
  - rewrite app_nil_r in E. subst pre. rewrite Nat.eqb_refl, orb_true_r. cbn [andb]. fold (flush addrs current tuples prog).
    destruct (flush addrs current tuples prog) as [[t p]|]; reflexivity.
  - cbn [hd] in He. subst e0.
    assert (K : Nat.eqb (length pre) (length errors) = false) by (apply Nat.eqb_neq; rewrite E, app_length; cbn [length]; lia).
    rewrite K, orb_false_r.
    assert (Nx : hd (nth (S (length pre)) errors e) es = nth (S (length pre)) errors e).
    { rewrite E. rewrite app_nth2 by lia. replace (S (length pre) - length pre)%nat with 1%nat by lia. destruct es; reflexivity. }
    assert (IH' : forall current tuples prog, corrupt_loop (S (length es)) (S (length pre)) w errors addrs (nth (S (length pre)) errors e) current tuples prog =
       go w addrs es current tuples prog).
    { intros c t p. rewrite <- (IH (pre ++ [e]) (nth (S (length pre)) errors e) c t p).
      - rewrite app_length. cbn [length]. rewrite Nat.add_1_r. reflexivity.
      - rewrite <- app_assoc. exact E.
      - exact Nx. }
    destruct (current =? e_word e) eqn:C; cbn [negb andb bind].
    + apply IH'.
    + fold (flush addrs current tuples prog). destruct (flush addrs current tuples prog) as [[t p]|]; cbn [bind]; [apply IH'|reflexivity]. Qed.

Lemma go_out w addrs es : forall current tuples prog, Z.of_nat (length addrs) <= current -> Forall (fun e => current <= e_word e) es ->
  StronglySorted (fun a b => e_word a <= e_word b) es -> go w addrs es current tuples prog = Ok prog.
Proof. induction es as [|e es IH]; intros current tuples prog Hc F S; cbn [go].
  - unfold flush. replace (current <? Z.of_nat (length addrs)) with false by lia. rewrite andb_false_r. reflexivity.
  - inversion F as [|? ? He F']; subst. inversion S as [|? ? S' Fe]; subst. destruct (current =? e_word e) eqn:E; [apply IH; assumption|].
    unfold flush. replace (current <? Z.of_nat (length addrs)) with false by lia. rewrite andb_false_r. cbn [bind].
    apply IH; [lia|exact Fe|exact S']. Qed.

(** Ranges of the errors of word [i]. *)
Definition ranges_of (w : Z) (es : list error) (i : Z) : list (Z * Z) :=
  map (error_range w) (filter (fun e => e_word e =? i) es).

Definition apply_ranges (ts : list (Z * Z)) (l : list inst) : list inst :=
  match ts with [] => l | _ => spread ts l end.

Definition words_prog (prog : program) : Prop := forall a l, dget prog a = Some l -> words l.

Lemma go_spec w addrs es : NoDup addrs -> forall current tuples prog, 0 <= current ->
  Forall (fun e => current <= e_word e) es -> StronglySorted (fun a b => e_word a <= e_word b) es ->
  Forall valid_range tuples -> Forall (fun e => valid_range (error_range w e)) es ->
  words_prog prog -> (forall a, In a addrs -> exists l, dget prog a = Some l) ->
  current < Z.of_nat (length addrs) ->
  exists prog', go w addrs es current tuples prog = Ok prog' /\ dkeys prog' = dkeys prog /\
    forall i a l, nth_error addrs i = Some a -> dget prog a = Some l ->
      dget prog' a = Some (apply_ranges ((if Z.of_nat i =? current then tuples else []) ++ ranges_of w es (Z.of_nat i)) l).
Proof. intros N. induction es as [|e es IH]; intros current tuples prog Hc F S V Ve W D Lt; cbn [go].
  - unfold flush. replace (current <? Z.of_nat (length addrs)) with true by lia. rewrite andb_true_r.
    destruct tuples as [|t ts]; cbn [length Nat.eqb negb bind].
    + exists prog. split; [reflexivity|]. split; [reflexivity|]. intros i a l Hi Hl. rewrite Hl.
      destruct (Z.of_nat i =? current); reflexivity.
    + destruct (nth_error addrs (Z.to_nat current)) as [a0|] eqn:Ea; [|apply nth_error_None in Ea; lia].
      unfold nth_r. rewrite Ea. cbn [bind]. destruct (D a0 (nth_error_In _ _ Ea)) as (l0 & Hl0).
      rewrite (corrupt_address_spec _ _ _ l0) by (try assumption; apply (W a0 l0 Hl0)). cbn [bind].
      eexists. split; [reflexivity|]. split.
      * rewrite dkeys_dset. unfold dmem. rewrite Hl0. reflexivity.
      * intros i a l Hi Hl. rewrite dget_dset, app_nil_r. destruct (Z.eqb_spec (Z.of_nat i) current) as [X|X].
        -- replace (Z.to_nat current) with i in Ea by lia. assert (a = a0) by congruence. subst a0. rewrite Z.eqb_refl.
           assert (l = l0) by congruence. subst. reflexivity.
        -- destruct (Z.eqb_spec a a0) as [->|Y]; [|rewrite Hl; reflexivity]. exfalso. apply X.
           assert (i = Z.to_nat current); [|lia]. apply (proj1 (NoDup_nth_error addrs) N); [apply nth_error_Some; congruence|congruence].
  - inversion F as [|? ? He F']; subst. inversion S as [|? ? S' Fe]; subst. inversion Ve as [|? ? Vh Ve']; subst.
    assert (RC : forall i, ranges_of w (e :: es) i = if e_word e =? i then error_range w e :: ranges_of w es i else ranges_of w es i).
    { intros i. unfold ranges_of. cbn [filter]. destruct (e_word e =? i); reflexivity. }
    destruct (current =? e_word e) eqn:E.
    + destruct (IH current (tuples ++ [error_range w e]) prog) as (prog' & Eg & Ek & Ed); try assumption.
      { apply Forall_app; split; [exact V|]. constructor; [exact Vh|constructor]. }
      exists prog'. split; [exact Eg|]. split; [exact Ek|]. intros i a l Hi Hl. rewrite (Ed i a l Hi Hl). rewrite RC.
      destruct (Z.eqb_spec (Z.of_nat i) current) as [X|X].
      * replace (e_word e =? Z.of_nat i) with true by lia. rewrite <- app_assoc. reflexivity.
      * replace (e_word e =? Z.of_nat i) with false by lia. reflexivity.
    + assert (Fe2 : Forall (fun e0 => current < e_word e0) es) by (eapply Forall_impl; [|exact Fe]; cbn; intros; lia).
      assert (RN : ranges_of w es current = []).
      { unfold ranges_of. rewrite filter_false; [reflexivity|]. intros x Hx. rewrite Forall_forall in Fe2. specialize (Fe2 x Hx). lia. }
      (* the flush *)
      assert (FL : exists prog1, flush addrs current tuples prog = Ok ([], prog1) /\ dkeys prog1 = dkeys prog /\ words_prog prog1 /\
         forall i a l, nth_error addrs i = Some a -> dget prog a = Some l ->
           dget prog1 a = Some (if Z.of_nat i =? current then apply_ranges tuples l else l)).
      { unfold flush. replace (current <? Z.of_nat (length addrs)) with true by lia. rewrite andb_true_r.
        destruct tuples as [|t ts]; cbn [length Nat.eqb negb bind].
        - exists prog. split; [reflexivity|]. split; [reflexivity|]. split; [exact W|]. intros i a l Hi Hl. rewrite Hl.
          destruct (Z.of_nat i =? current); reflexivity.
        - destruct (nth_error addrs (Z.to_nat current)) as [a0|] eqn:Ea; [|apply nth_error_None in Ea; lia].
          unfold nth_r. rewrite Ea. cbn [bind]. destruct (D a0 (nth_error_In _ _ Ea)) as (l0 & Hl0).
          rewrite (corrupt_address_spec _ _ _ l0) by (try assumption; apply (W a0 l0 Hl0)). cbn [bind].
          eexists. split; [reflexivity|]. split; [rewrite dkeys_dset; unfold dmem; rewrite Hl0; reflexivity|]. split.
          + intros a l. rewrite dget_dset. destruct (Z.eqb_spec a a0) as [->|Y]; [|apply W]. intros X. injection X as <-.
            apply spread_words; [exact V|apply (W a0 l0 Hl0)].
          + intros i a l Hi Hl. rewrite dget_dset. destruct (Z.eqb_spec (Z.of_nat i) current) as [X|X].
            * replace (Z.to_nat current) with i in Ea by lia. assert (a = a0) by congruence. subst a0. rewrite Z.eqb_refl.
              assert (l = l0) by congruence. subst. reflexivity.
            * destruct (Z.eqb_spec a a0) as [->|Y]; [|rewrite Hl; reflexivity]. exfalso. apply X.
              assert (i = Z.to_nat current); [|lia]. apply (proj1 (NoDup_nth_error addrs) N); [apply nth_error_Some; congruence|congruence]. }
      destruct FL as (prog1 & Ef & Ek1 & W1 & D1). rewrite Ef. cbn [bind app].
      assert (D' : forall a, In a addrs -> exists l, dget prog1 a = Some l).
      { intros a Ha. apply dget_some_in. rewrite Ek1. apply dget_some_in, D, Ha. }
      destruct (Z.lt_ge_cases (e_word e) (Z.of_nat (length addrs))) as [In_|Out].
      * destruct (IH (e_word e) [error_range w e] prog1) as (prog' & Eg & Ek & Ed); try assumption; try lia.
        { constructor; [exact Vh|constructor]. }
        exists prog'. split; [exact Eg|]. split; [congruence|]. intros i a l Hi Hl.
        specialize (D1 i a l Hi Hl). rewrite (Ed i a _ Hi D1). rewrite RC.
        destruct (Z.eqb_spec (Z.of_nat i) current) as [X|X].
        -- replace (Z.of_nat i =? e_word e) with false by lia. replace (e_word e =? Z.of_nat i) with false by lia.
           rewrite X, RN, !app_nil_r. reflexivity.
        -- rewrite (Z.eqb_sym (Z.of_nat i) (e_word e)). destruct (e_word e =? Z.of_nat i); reflexivity.
      * exists prog1. split; [apply go_out; assumption|]. split; [exact Ek1|]. intros i a l Hi Hl.
        rewrite (D1 i a l Hi Hl). rewrite RC.
        assert (Z.of_nat i < Z.of_nat (length addrs)) by (assert (i < length addrs)%nat by (apply nth_error_Some; congruence); lia).
        replace (e_word e =? Z.of_nat i) with false by lia.
        assert (RNi : ranges_of w es (Z.of_nat i) = []).
        { unfold ranges_of. rewrite filter_false; [reflexivity|]. intros x Hx. rewrite Forall_forall in Fe. specialize (Fe x Hx). lia. }
        rewrite RNi, app_nil_r. destruct (Z.of_nat i =? current); reflexivity. Qed.

(** ** Entries are inside their word *)
Lemma entries_valid w t e : 1 <= w <= 32 -> 0 <= t -> In e (entries w (w * t)) ->
  0 <= e_word e /\ 0 <= e_bit e < 32 /\ valid_range (error_range w e).
Proof. intros Hw Ht. unfold entries.
  assert (B : 0 <= w * t) by nia. assert (Q : 0 <= w * t / 32) by (apply Z.div_pos; lia).
  pose proof (Z.mod_pos_bound (w * t) 32 ltac:(lia)) as M.
  assert (M32 : w < 32 \/ (w * t) mod 32 = 0) by (destruct (Z.lt_ge_cases w 32); [left; assumption|right; replace w with 32 by lia; rewrite Z.mul_comm; apply Z.mod_mul; lia]).
  set (q := w * t / 32) in *. set (m := (w * t) mod 32) in *. clearbody q m.
  destruct (m + w >=? 32) eqn:E; cbn [In].
  - intros [<-|[<-|[]]]; unfold valid_range, error_range, e_word, e_bit, e_len; cbn [fst snd]; lia.
  - intros [<-|[]]. unfold valid_range, error_range, e_word, e_bit, e_len; cbn [fst snd]. lia. Qed.

Lemma error_bits_range w e b : 0 <= b < 32 -> valid_range (error_range w e) -> forall i,
  (error_bits w e (32 * i + b) <-> e_word e = i /\ fst (error_range w e) <= b < snd (error_range w e)).
Proof. intros Hb V i. destruct e as [[q m] [n|]]; unfold error_bits, valid_range, error_range, e_word, e_bit, e_len in *; cbn [fst snd] in *; lia. Qed.

(** ** The whole corruptor *)
Lemma sorted_words w errors : (forall e, In e errors -> 0 <= e_word e /\ 0 <= e_bit e < 32 /\ valid_range (error_range w e)) ->
  StronglySorted (fun a b => e_word a <= e_word b) (sort_by (fun e => e_word e * (Z.of_nat (length errors) * 100) + e_bit e) errors).
Proof. intros V. set (key := fun e => e_word e * (Z.of_nat (length errors) * 100) + e_bit e). pose proof (sort_by_perm key errors) as P.
  apply (sorted_weaken _ _ _ (sort_by_sorted key errors)). intros x y Hx Hy.
  apply (Permutation_in _ P) in Hx, Hy. destruct (V x Hx) as (X1 & X2 & _), (V y Hy) as (Y1 & Y2 & _).
  assert (L : 1 <= Z.of_nat (length errors)) by (destruct errors; [contradiction|cbn [length]; lia]).
  unfold key. set (k := Z.of_nat (length errors)) in *. clearbody k. nia. Qed.

Lemma sorted_addresses (prog : program) i a : NoDup (dkeys prog) -> nth_address prog i a ->
  nth_error (sort_by (fun a => a) (dkeys prog)) (Z.to_nat i) = Some a.
Proof. intros N [Ha <-]. set (s := sort_by (fun a => a) (dkeys prog)).
  pose proof (sort_by_perm (fun a : Z => a) (dkeys prog)) as P. fold s in P.
  rewrite Nat2Z.id. rewrite <- (filter_perm_length _ _ _ P). apply rank_nth.
  - apply sort_by_sorted.
  - apply (Permutation_NoDup (Permutation_sym P) N).
  - apply (Permutation_in _ (Permutation_sym P) Ha). Qed.

Lemma address_rank (prog : program) a : In a (dkeys prog) -> exists i, 0 <= i /\ nth_address prog i a.
Proof. intros H. eexists. split; [|split; [exact H|reflexivity]]. lia. Qed.

Lemma entries_nonempty w b : exists e, In e (entries w b).
Proof. unfold entries. destruct (b mod 32 + w >=? 32); eexists; left; reflexivity. Qed.

Lemma announced_first order w nwords lost : 1 <= w -> order <> [] ->
  (exists t, announced order w nwords lost t) <-> first_inside order w nwords lost.
Proof. intros Hw Ho. set (P := Z.of_nat (length order)).
  assert (HP : 0 < P) by (unfold P; destruct order; [congruence|cbn [length]; lia]). split.
  - intros (t & Ht & _ & _ & t0 & Et & Hd & H0). fold P in Et. exists (t0 mod P). fold P.
    pose proof (Z.mod_pos_bound t0 P HP). pose proof (Z.div_mod t0 P ltac:(lia)).
    assert (0 <= t0 / P) by (rewrite Et; apply Z.div_pos; lia).
    split; [lia|]. split; [rewrite Hd; unfold carrier; fold P; rewrite Z.mod_mod by lia; reflexivity|]. nia.
  - intros (t0 & B & Hd & H0). exists t0. split; [lia|]. split; [exact H0|]. split.
    + destruct lost; [discriminate|]. injection Hd as ->. left; reflexivity.
    + exists t0. auto. Qed.

Lemma packet_main order w nwords lost prog : 1 <= w <= 32 -> NoDup order -> incl lost order -> lost <> [] ->
  good_program prog -> first_inside order w nwords lost ->
  exists errors prog', predict_corruption (Z.of_nat (length order)) w nwords order lost = Ok errors /\ NoDup errors /\
    (forall e, In e errors <-> exists t, announced order w nwords lost t /\ In e (entries w (w * t))) /\
    packet_corrupt (Z.of_nat (length order)) w nwords order lost prog = Ok prog' /\ dkeys prog' = dkeys prog /\
    exists sorted, Permutation sorted errors /\ forall i a l, nth_address prog i a -> dget prog a = Some l ->
      dget prog' a = Some (sort_by i_enc (apply_ranges (ranges_of w sorted i) l)).
Proof. intros Hw N I Hl [Nk G] Hf.
  assert (Ho : order <> []) by (destruct lost as [|p ?]; [congruence|]; intros ->; apply (I p); left; reflexivity).
  destruct (predict_exact order w nwords lost ltac:(lia) N I Hl) as (errors & Ep & Ne & Ie).
  assert (V : forall e, In e errors -> 0 <= e_word e /\ 0 <= e_bit e < 32 /\ valid_range (error_range w e)).
  { intros e He. apply Ie in He. destruct He as (t & Ha & He). apply (entries_valid w t); [exact Hw|apply Ha|exact He]. }
  assert (NZ : errors <> []).
  { apply announced_first in Hf; [|lia|exact Ho]. destruct Hf as (t & Ht). destruct (entries_nonempty w (w * t)) as (e & He).
    intros ->. apply (proj2 (Ie e)). eauto. }
  unfold packet_corrupt. destruct lost as [|p0 lost0] eqn:El; [congruence|]. rewrite <- El in *. clear El p0 lost0.
  destruct order as [|o0 order0] eqn:Eo; [congruence|]. rewrite <- Eo in *. clear Eo o0 order0. cbn [bind].
  rewrite Ep. cbn [bind]. set (vv := Z.of_nat (length errors) * 100). set (key := fun e => e_word e * vv + e_bit e).
  set (sorted := sort_by key errors). pose proof (sort_by_perm key errors) as Pm. fold sorted in Pm.
  assert (SW : StronglySorted (fun a b => e_word a <= e_word b) sorted) by (apply sorted_words with (w := w); exact V).
  set (addrs := sort_by (fun a => a) (dkeys prog)). pose proof (sort_by_perm (fun a : Z => a) (dkeys prog)) as Pa. fold addrs in Pa.
  destruct sorted as [|e0 es] eqn:Es; [apply Permutation_nil in Pm; congruence|]. rewrite <- Es in *.
  change (nth_r sorted 0) with (nth_r sorted (length (@nil error))).
  assert (E0 : nth_r sorted (length (@nil error)) = Ok e0) by (rewrite Es; reflexivity). rewrite E0. cbn [bind].
  change (corrupt_loop (S (length sorted)) 0) with (corrupt_loop (S (length sorted)) (length (@nil error))).
  rewrite (loop_go w addrs sorted sorted [] e0) by (rewrite ?Es; reflexivity).
  assert (Vs : forall e, In e sorted -> 0 <= e_word e /\ 0 <= e_bit e < 32 /\ valid_range (error_range w e))
    by (intros e He; apply V, (Permutation_in _ Pm He)).
  assert (B0 : 0 <= e_word e0) by (apply Vs; rewrite Es; left; reflexivity).
  assert (FW : Forall (fun e => e_word e0 <= e_word e) sorted).
  { rewrite Es in SW |- *. inversion SW; subst. constructor; [lia|assumption]. }
  assert (WP : words_prog prog).
  { intros a l Ha. apply dget_in in Ha. rewrite Forall_forall in G. apply (G _ Ha). }
  assert (DA : forall a, In a addrs -> exists l, dget prog a = Some l).
  { intros a Ha. apply dget_some_in. apply (Permutation_in _ Pa Ha). }
  assert (NA : NoDup addrs) by (apply (Permutation_NoDup (Permutation_sym Pa) Nk)).
  assert (FV : Forall (fun e => valid_range (error_range w e)) sorted) by (apply Forall_forall; intros e He; apply Vs, He).
  assert (GO : exists prog', go w addrs sorted (e_word e0) [] prog = Ok prog' /\ dkeys prog' = dkeys prog /\
     forall i a l, nth_error addrs i = Some a -> dget prog a = Some l -> dget prog' a = Some (apply_ranges (ranges_of w sorted (Z.of_nat i)) l)).
  { destruct (Z.lt_ge_cases (e_word e0) (Z.of_nat (length addrs))) as [A|A].
    - destruct (go_spec w addrs sorted NA (e_word e0) [] prog) as (prog' & Eg & Ek & Ed); try assumption; [constructor|].
      exists prog'. split; [exact Eg|]. split; [exact Ek|]. intros i a l Hi Hl'. rewrite (Ed i a l Hi Hl').
      destruct (Z.of_nat i =? e_word e0); reflexivity.
    - exists prog. split; [apply go_out; assumption|]. split; [reflexivity|]. intros i a l Hi Hl'. rewrite Hl'.
      assert (i < length addrs)%nat by (apply nth_error_Some; congruence).
      assert (R0 : ranges_of w sorted (Z.of_nat i) = []).
      { unfold ranges_of. rewrite filter_false; [reflexivity|]. intros e He. rewrite Forall_forall in FW. specialize (FW e He). lia. }
      rewrite R0. reflexivity. }
  destruct GO as (prog' & Eg & Ek & Ed). rewrite Eg. cbn [bind].
  exists errors, (map (fun kv => (fst kv, sort_by i_enc (snd kv))) prog').
  split; [reflexivity|]. split; [exact Ne|]. split; [exact Ie|]. split; [reflexivity|]. split.
  - rewrite <- Ek. unfold dkeys. rewrite map_map. reflexivity.
  - exists sorted. split; [exact Pm|]. intros i a l Hi Hl'. rewrite dget_map_values.
    assert (0 <= i) by (destruct Hi as [_ <-]; lia).
    apply sorted_addresses in Hi; [|exact Nk]. rewrite (Ed _ _ _ Hi Hl'), Z2Nat.id by lia. reflexivity. Qed.

Lemma packet_no_error order w nwords lost prog : 1 <= w -> NoDup order -> incl lost order -> lost <> [] ->
  ~ first_inside order w nwords lost -> packet_corrupt (Z.of_nat (length order)) w nwords order lost prog = Err IndexError.
Proof. intros Hw N I Hl Hf.
  assert (Ho : order <> []) by (destruct lost as [|p ?]; [congruence|]; intros ->; apply (I p); left; reflexivity).
  destruct (predict_exact order w nwords lost ltac:(lia) N I Hl) as (errors & Ep & Ne & Ie).
  assert (E0 : errors = []).
  { destruct errors as [|e errors]; [reflexivity|]. exfalso. apply Hf. apply announced_first; [lia|exact Ho|].
    destruct (proj1 (Ie e) (or_introl eq_refl)) as (t & Ht & _). eauto. }
  unfold packet_corrupt. destruct lost as [|p0 lost0] eqn:El; [congruence|]. rewrite <- El in *. clear El p0 lost0.
  destruct order as [|o0 order0] eqn:Eo; [congruence|]. rewrite <- Eo in *. clear Eo o0 order0. cbn [bind].
  rewrite Ep, E0. reflexivity. Qed.

(** ** Candidates *)
Lemma apply_ranges_in ts l x : Forall valid_range ts ->
  (In x (map i_enc (apply_ranges ts l)) <-> exists i, In i l /\ same_outside (covered ts) (i_enc i) x).
Proof. intros V. unfold apply_ranges. destruct ts as [|t ts'] eqn:Et.
  - rewrite in_map_iff. split.
    + intros (i & <- & Hi). exists i. split; [exact Hi|apply same_outside_refl].
    + intros (i & Hi & S). exists i. split; [|exact Hi]. apply Z.bits_inj'. intros b Hb. symmetry. apply S; [exact Hb|].
      intros (t & [] & _).
  - rewrite <- Et in *. clear Et t ts'. unfold spread. destruct l as [|f l'] eqn:El.
    + cbn. split; [contradiction|]. intros (i & [] & _).
    + rewrite <- El. rewrite in_map_iff. split.
      * intros (j & <- & Hj). apply in_flat_map in Hj. destruct Hj as (i & Hi & Hj). apply in_map_iff in Hj. destruct Hj as (c & <- & Hc).
        apply allflips_in in Hc; [|apply tuple_bits_nonneg, V]. destruct Hc as (e0 & [<-|[]] & S). exists i. split; [exact Hi|].
        eapply same_outside_ext; [|exact S]. intros b. apply tuple_bits_in.
      * intros (i & Hi & S). exists (mkInst x (i_addr f)). split; [reflexivity|]. apply in_flat_map. exists i. split; [exact Hi|].
        apply in_map_iff. exists x. split; [reflexivity|]. apply allflips_in; [apply tuple_bits_nonneg, V|]. exists (i_enc i).
        split; [left; reflexivity|]. eapply same_outside_ext; [|exact S]. intros b. symmetry. apply tuple_bits_in. Qed.

Lemma apply_ranges_addr ts e j : In j (apply_ranges ts [e]) -> i_addr j = i_addr e.
Proof. unfold apply_ranges, spread. destruct ts; cbn [flat_map].
  - intros [<-|[]]. reflexivity.
  - rewrite app_nil_r, in_map_iff. intros (c & <- & _). reflexivity. Qed.

Lemma covered_predicted w errors sorted i b : Permutation sorted errors ->
  (forall e, In e errors -> valid_range (error_range w e)) ->
  (covered (ranges_of w sorted i) b <-> 0 <= b < 32 /\ predicted w errors (32 * i + b)).
Proof. intros Pm V. unfold covered, ranges_of. split.
  - intros (t & Ht & B). apply in_map_iff in Ht. destruct Ht as (e & <- & He). apply filter_In in He. destruct He as [He Ew].
    apply (Permutation_in _ Pm) in He. destruct (V e He) as [V1 V2]. split; [lia|]. exists e. split; [exact He|].
    apply error_bits_range; [lia|split; assumption|]. split; [lia|exact B].
  - intros [Hb (e & He & B)]. apply error_bits_range in B; [|exact Hb|apply V, He]. destruct B as [Ew B].
    exists (error_range w e). split; [|exact B]. apply in_map_iff. exists e. split; [reflexivity|]. apply filter_In.
    split; [apply (Permutation_in _ (Permutation_sym Pm) He)|lia]. Qed.

(** ** Repetitions *)
Lemma single_nodup ts e : Forall valid_range ts ->
  (NoDup (map i_enc (apply_ranges ts [e])) <-> NoDup (tuple_bits ts)).
Proof. intros V. unfold apply_ranges, spread. destruct ts as [|t ts'] eqn:Et.
  - cbn. split; intros _; repeat constructor; auto.
  - rewrite <- Et in *. clear Et t ts'. cbn [flat_map]. rewrite app_nil_r, map_map. cbn [i_enc]. rewrite map_id. split.
    + intros Nd. destruct (ListDec.NoDup_dec Z.eq_dec (tuple_bits ts)) as [Y|Y]; [exact Y|exfalso].
      apply (tuples_dup_overlap ts (i_enc e) _ V (tuples_flips ts (i_enc e) V) Y Nd).
    + intros Nd. apply allflips_nodup; [apply tuple_bits_nonneg, V|exact Nd|repeat constructor; auto|].
      apply Forall_forall. intros b _. apply agree_single. Qed.

Lemma entries_range_unique w t e e' i : 1 <= w <= 32 -> 0 <= t -> In e (entries w (w * t)) -> In e' (entries w (w * t)) ->
  e_word e = i -> e_word e' = i -> e = e'.
Proof. intros Hw Ht. unfold entries. destruct ((w * t) mod 32 + w >=? 32); cbn [In].
  - intros [<-|[<-|[]]] [<-|[<-|[]]]; unfold e_word; cbn [fst]; intros; try reflexivity; lia.
  - intros [<-|[]] [<-|[]]; reflexivity. Qed.

Lemma nodup_word order w nwords lost errors sorted i : 1 <= w <= 32 -> NoDup errors -> Permutation sorted errors ->
  (forall e, In e errors <-> exists t, announced order w nwords lost t /\ In e (entries w (w * t))) ->
  (NoDup (tuple_bits (ranges_of w sorted i)) <->
   ~ exists t, announced order w nwords lost t /\ announced order w nwords lost (t + 1) /\
               32 <= chunk_bit w t + w /\ chunk_word w (t + 1) = i).
Proof. intros Hw Ne Pm Ie.
  assert (Vs : forall e, In e sorted -> exists t, announced order w nwords lost t /\ In e (entries w (w * t))) by (intros e He; apply Ie, (Permutation_in _ Pm He)).
  assert (Eq : tuple_bits (ranges_of w sorted i) =
    flat_map (fun e => zrange (fst (error_range w e)) (snd (error_range w e))) (filter (fun e => e_word e =? i) sorted)).
  { unfold tuple_bits, ranges_of. rewrite !flat_map_concat_map, map_map. reflexivity. }
  rewrite Eq. split.
  - intros Nd (t & A1 & A2 & Hc & Hi).
    (* the entry of chunk t in the next word and the first entry of chunk t+1 share bit w*(t+1) *)
    pose proof (Z.div_mod (w * t) 32 ltac:(lia)) as D. pose proof (Z.mod_pos_bound (w * t) 32 ltac:(lia)) as M.
    unfold chunk_bit in Hc. unfold chunk_word in Hi.
    assert (M32 : w < 32 \/ (w * t) mod 32 = 0) by (destruct (Z.lt_ge_cases w 32); [left; assumption|right; replace w with 32 by lia; rewrite Z.mul_comm; apply Z.mod_mul; lia]).
    assert (E1 : w * (t + 1) / 32 = w * t / 32 + 1 /\ (w * (t + 1)) mod 32 = (w * t) mod 32 + w - 32).
    { split; [symmetry; apply Z.div_unique with ((w * t) mod 32 + w - 32)|symmetry; apply Z.mod_unique with (w * t / 32 + 1)]; lia. }
    destruct E1 as [E1 E2].
    set (q := w * t / 32) in *. set (m := (w * t) mod 32) in *.
    assert (X1 : In (q + 1, 0, Some (w - 32 + 1 + m)) (entries w (w * t))).
    { unfold entries. fold q m. replace (m + w >=? 32) with true by lia. right; left; reflexivity. }
    assert (X2 : exists e', In e' (entries w (w * (t + 1))) /\ e_word e' = i /\ e' <> (q + 1, 0, Some (w - 32 + 1 + m)) /\
                            fst (error_range w e') <= m + w - 32 < snd (error_range w e')).
    { unfold entries. rewrite E1, E2. destruct (m + w - 32 + w >=? 32) eqn:C.
      - eexists. split; [left; reflexivity|]. split; [unfold e_word; cbn; lia|]. split.
        + intros Y. assert (Y1 : m + w - 32 = 0) by congruence. assert (Y2 : 32 - 1 - (m + w - 32) = w - 32 + 1 + m) by congruence. lia.
        + unfold error_range, e_len, e_bit. cbn [fst snd]. lia.
      - eexists. split; [left; reflexivity|]. split; [unfold e_word; cbn; lia|]. split; [congruence|].
        unfold error_range, e_len, e_bit. cbn [fst snd]. lia. }
    destruct X2 as (e' & I2 & W2 & N2 & R2). apply N2. symmetry.
    assert (Fi : forall e, (exists t, announced order w nwords lost t /\ In e (entries w (w * t))) -> e_word e = i ->
        In e (filter (fun e => e_word e =? i) sorted)).
    { intros e He Hw'. apply filter_In. split; [|lia]. apply (Permutation_in _ (Permutation_sym Pm)), Ie, He. }
    refine (nodup_flat_map_elim _ _ _ _ (m + w - 32) Nd (Fi _ (ex_intro _ t (conj A1 X1)) _) (Fi _ (ex_intro _ (t + 1) (conj A2 I2)) W2) _ _).
    + unfold e_word. cbn [fst]. lia.
    + apply in_zrange. unfold error_range, e_len, e_bit. cbn [fst snd]. lia.
    + apply in_zrange. exact R2.
  - intros H. apply nodup_flat_map_intro.
    + apply NoDup_filter. apply (Permutation_NoDup (Permutation_sym Pm) Ne).
    + intros e _. apply zrange_nodup.
    + intros e e' b He He' Hb Hb'. apply filter_In in He, He'. destruct He as [He We], He' as [He' We'].
      destruct (Vs e He) as (t & At & Et), (Vs e' He') as (t' & At' & Et').
      apply in_zrange in Hb, Hb'.
      destruct (entries_valid w t e Hw ltac:(apply At) Et) as (_ & _ & Ve).
      destruct (entries_valid w t' e' Hw ltac:(apply At') Et') as (_ & _ & Ve').
      assert (B : 0 <= b < 32) by (unfold valid_range in Ve; lia).
      assert (R : reported w t (32 * i + b)).
      { apply entries_reported; [lia|apply At|]. exists e. split; [exact Et|]. apply error_bits_range; [exact B|exact Ve|]. lia. }
      assert (R' : reported w t' (32 * i + b)).
      { apply entries_reported; [lia|apply At'|]. exists e'. split; [exact Et'|]. apply error_bits_range; [exact B|exact Ve'|]. lia. }
      assert (Key : forall s s', s < s' -> announced order w nwords lost s -> announced order w nwords lost s' ->
                      reported w s (32 * i + b) -> reported w s' (32 * i + b) -> False).
      { intros s s' Hs As As' Rs Rs'. apply H. exists s. unfold reported in Rs, Rs'.
        assert (w * s + w <= w * s') by nia.
        destruct (chunk_bit w s + w <? 32) eqn:C; [destruct (chunk_bit w s' + w <? 32); lia|].
        assert (w * s' <= 32 * i + b) by (destruct (chunk_bit w s' + w <? 32); lia).
        assert (s' = s + 1) by nia. subst s'. split; [exact As|]. split; [exact As'|]. split; [lia|].
        unfold chunk_word. symmetry. apply Z.div_unique with b; [lia|]. nia. }
      destruct (Z.lt_trichotomy t t') as [A|[<-|A]].
      * destruct (Key t t' A At At' R R').
      * apply (entries_range_unique w t e e' i); try assumption; try lia. apply At.
      * destruct (Key t' t A At' At R' R). Qed.
