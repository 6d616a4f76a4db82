(** Property theorem C156 (what a burst of lost packets does to one instruction). *)
From Verif Require Import ListLemmas SPModel SPSpec SPProofs BitsSpec QueueModel InterleaveModel InterleaveSpec
  InterleaveProofs DeinterleaveProofs BurstProofs.
From Coq Require Import Permutation ZifyBool ZifyNat.

(** C156: with [q * 4^m] packets ([q] from one to three) and words of [2^k]
    chunks, two chunks of one word always travel in different packets, whose
    numbers differ by a multiple of [2 * 4^(m-k)]. *)
Theorem C156_apart : forall m k q w order t t',
  0 <= k <= m -> 1 <= q <= 3 -> w * 2 ^ k = 32 -> build_2d_interleave_sp (q * 4 ^ m) = Ok order ->
  chunk_word w t = chunk_word w t' -> t <> t' ->
  carrier order t <> carrier order t' /\ (2 * 4 ^ (m - k) | carrier order t - carrier order t').
Proof. exact word_apart. Qed.
Print Assumptions C156_apart.

(** So a burst of [L] consecutive packets carries at most one chunk of a word
    for every [2 * 4^(m-k)] packets begun. *)
Theorem C156_burst : forall m k q w order i a L ts,
  0 <= k <= m -> 1 <= q <= 3 -> w * 2 ^ k = 32 -> 1 <= L ->
  build_2d_interleave_sp (q * 4 ^ m) = Ok order ->
  NoDup ts -> (forall t, In t ts -> chunk_word w t = i /\ a <= carrier order t < a + L) ->
  Z.of_nat (length ts) <= (L - 1) / (2 * 4 ^ (m - k)) + 1.
Proof. intros m k q w order i a L ts Hk Hq Hw HL B Nd H.
  pose proof (pow4_pos (m - k) ltac:(lia)) as PB. set (D := 2 * 4 ^ (m - k)) in *. assert (HD : 0 < D) by lia.
  pose proof (Z.div_pos (L - 1) D ltac:(lia) HD) as P0.
  destruct ts as [|t0 ts0]; [cbn [length]; lia|]. remember (t0 :: ts0) as ts eqn:Ets.
  assert (H0 : In t0 ts) by (subst ts; left; reflexivity).
  set (r := carrier order t0). set (e0 := - ((r - a) / D)).
  assert (Ap : forall x y, In x ts -> In y ts -> x <> y -> carrier order x <> carrier order y /\ (D | carrier order x - carrier order y)).
  { intros x y Hx Hy Ne. apply (word_apart m k q w order x y Hk Hq Hw B); [|exact Ne]. destruct (H x Hx), (H y Hy). congruence. }
  assert (Dr : forall x, In x ts -> exists e, carrier order x = r + D * e).
  { intros x Hx. destruct (Z.eq_dec x t0) as [->|Ne]; [exists 0; unfold r; lia|].
    destruct (Ap x t0 Hx H0 Ne) as [_ [e He]]. exists e. unfold r. lia. }
  set (f := fun t => (carrier order t - r) / D).
  assert (Fv : forall x e, carrier order x = r + D * e -> f x = e).
  { intros x e E. unfold f. rewrite E. replace (r + D * e - r) with (e * D) by ring. apply Z.div_mul. lia. }
  assert (N2 : NoDup (map f ts)).
  { apply nodup_map_in; [exact Nd|]. intros x y Hx Hy E. destruct (Z.eq_dec x y) as [|Ne]; [assumption|exfalso].
    destruct (Ap x y Hx Hy Ne) as [Nc _]. destruct (Dr x Hx) as [e Ee], (Dr y Hy) as [e' Ee'].
    rewrite (Fv x e Ee), (Fv y e' Ee') in E. subst e'. congruence. }
  assert (Inc : incl (map f ts) (zrange e0 (e0 + (L - 1) / D + 1))).
  { intros v Hv. apply in_map_iff in Hv. destruct Hv as (x & <- & Hx). destruct (Dr x Hx) as [e Ee]. rewrite (Fv x e Ee).
    destruct (H x Hx) as [_ Hc]. rewrite Ee in Hc. apply in_zrange. unfold e0.
    pose proof (Z.div_mod (r - a) D ltac:(lia)) as DM. pose proof (Z.mod_pos_bound (r - a) D HD) as MB.
    set (z := (r - a) / D) in *. split; [nia|].
    assert (e + z <= (L - 1) / D); [|lia]. apply Z.div_le_lower_bound; [exact HD|]. nia. }
  pose proof (NoDup_incl_length N2 Inc) as Le. rewrite map_length, zrange_length in Le. lia. Qed.
Print Assumptions C156_burst.

Lemma order_facts m q order : 0 <= m -> 1 <= q <= 3 -> build_2d_interleave_sp (q * 4 ^ m) = Ok order ->
  NoDup order /\ Z.of_nat (length order) = q * 4 ^ m.
Proof. intros Hm Hq B. pose proof (pow4_pos m Hm) as P4.
  destruct (build_perm (q * 4 ^ m)) as [[rows (_ & B' & P)] _]; [nia|]. rewrite B in B'. injection B' as ->. split.
  - apply Permutation_NoDup with (zrange 0 (q * 4 ^ m)); [symmetry; exact P|apply zrange_nodup].
  - rewrite (Permutation_length P), zrange_length. nia. Qed.

Lemma filter_map {A B} (f : A -> B) p l : filter p (map f l) = map f (filter (fun x => p (f x)) l).
Proof. induction l as [|x l IH]; [reflexivity|]. cbn. destruct (p (f x)); cbn; rewrite IH; reflexivity. Qed.

(** Put together with the receiver: when everything that is lost lies in one
    burst of at most [2 * 4^(m-k)] consecutive packets, no instruction has more
    than one of its chunks damaged, and at most one is reported for it. *)
Theorem C156_received : forall m k q w data order tx rx Lr a L,
  0 <= k <= m -> 1 <= q <= 3 -> w * 2 ^ k = 32 -> L <= 2 * 4 ^ (m - k) ->
  build_2d_interleave_sp (q * 4 ^ m) = Ok order -> (q * 4 ^ m | nchunks data w) ->
  interleave data order w = Ok tx -> remains_of rx tx order -> last_received rx order Lr -> 1 <= Lr ->
  (forall p, In p order -> received rx p = false -> a <= p < a + L) ->
  exists words errors, deinterleave rx order w = Ok (words, errors) /\
    (forall i, (length (filter (fun e => fst e =? i)%Z errors) <= 1)%nat) /\
    (forall i ts, NoDup ts ->
       (forall t, In t ts -> 0 <= t < nchunks data w /\ chunk_word w t = i /\ chunk words w t <> chunk data w t) ->
       (length ts <= 1)%nat).
Proof. intros m k q w data order tx rx Lr a L Hk Hq Hw HL B Dv Ti Rm La L1 Lost.
  pose proof (pow2_pos' k ltac:(lia)) as P2k. pose proof (pow4_pos (m - k) ltac:(lia)) as PB. pose proof (pow4_pos m ltac:(lia)) as P4.
  destruct (order_facts m q order ltac:(lia) Hq B) as [Nd Ln].
  destruct (deinterleave_divisible data order w tx rx Lr) as (words & D & _ & _ & _ & V); try assumption;
    [nia|exists (2 ^ k); lia|rewrite Ln; exact Dv|].
  eexists words, _. split; [exact D|].
  assert (Car : forall t, In (carrier order t) order).
  { intros t. apply nth_In. assert (0 < Z.of_nat (length order)) by (rewrite Ln; nia).
    pose proof (Z.mod_pos_bound t (Z.of_nat (length order)) ltac:(assumption)). lia. }
  assert (Main : forall i ts, NoDup ts ->
     (forall t, In t ts -> chunk_word w t = i /\ received rx (carrier order t) = false) -> (length ts <= 1)%nat).
  { intros i ts Ndt H. destruct ts as [|t0 ts0]; [cbn; lia|]. remember (t0 :: ts0) as ts eqn:Ets.
    assert (Hc : forall t, In t ts -> chunk_word w t = i /\ a <= carrier order t < a + L).
    { intros t Ht. destruct (H t Ht) as [H1 H2]. split; [exact H1|]. apply Lost; [apply Car|exact H2]. }
    assert (1 <= L) by (destruct (Hc t0); [subst ts; left; reflexivity|lia]).
    pose proof (C156_burst m k q w order i a L ts Hk Hq Hw ltac:(lia) B Ndt Hc) as Bd.
    rewrite Z.div_small in Bd by lia. lia. }
  split.
  - intros i. rewrite filter_map, map_length. apply Main with i.
    + apply NoDup_filter, NoDup_filter, zrange_nodup.
    + intros t Ht. apply filter_In in Ht. destruct Ht as [Ht E]. apply filter_In in Ht. destruct Ht as [_ R]. cbn [fst] in E.
      split; [lia|]. destruct (received rx (carrier order t)); [discriminate|reflexivity].
  - intros i ts Ndt H. apply Main with i; [exact Ndt|]. intros t Ht. destruct (H t Ht) as (Hr & Hi & Ne). split; [exact Hi|].
    rewrite V in Ne by exact Hr. destruct (received rx (carrier order t)); [congruence|reflexivity]. Qed.
Print Assumptions C156_received.

(** The same without whole rounds: as far as the receiver returns the stream at
    all, which is up to the last round that reaches the last received packet
    (C15). *)
Theorem C156_any_length : forall m k q w data order tx rx Lr a L,
  0 <= k <= m -> 1 <= q <= 3 -> w * 2 ^ k = 32 -> L <= 2 * 4 ^ (m - k) ->
  build_2d_interleave_sp (q * 4 ^ m) = Ok order ->
  interleave data order w = Ok tx -> remains_of rx tx order -> last_received rx order Lr -> 1 <= Lr ->
  (forall p, In p order -> received rx p = false -> a <= p < a + L) ->
  exists words errors, deinterleave rx order w = Ok (words, errors) /\
    (forall i, (length (filter (fun e => fst e =? i)%Z errors) <= 1)%nat) /\
    (forall i ts, NoDup ts ->
       (forall t, In t ts -> 0 <= t < q * 4 ^ m * ((nchunks data w - 1 - Lr) / (q * 4 ^ m) + 1) /\
                             chunk_word w t = i /\ chunk words w t <> chunk data w t) ->
       (length ts <= 1)%nat).
Proof. intros m k q w data order tx rx Lr a L Hk Hq Hw HL B Ti Rm La L1 Lost.
  pose proof (pow2_pos' k ltac:(lia)) as P2k. pose proof (pow4_pos (m - k) ltac:(lia)) as PB. pose proof (pow4_pos m ltac:(lia)) as P4.
  destruct (order_facts m q order ltac:(lia) Hq B) as [Nd Ln].
  destruct (deinterleave_stream data order w tx rx Lr) as (words & D & _ & _ & V & _); try assumption;
    [nia|exists (2 ^ k); lia|]. rewrite Ln in D, V.
  eexists words, _. split; [exact D|].
  assert (Car : forall t, In (carrier order t) order).
  { intros t. apply nth_In. assert (0 < Z.of_nat (length order)) by (rewrite Ln; nia).
    pose proof (Z.mod_pos_bound t (Z.of_nat (length order)) ltac:(assumption)). lia. }
  assert (Main : forall i ts, NoDup ts ->
     (forall t, In t ts -> chunk_word w t = i /\ received rx (carrier order t) = false) -> (length ts <= 1)%nat).
  { intros i ts Ndt H. destruct ts as [|t0 ts0]; [cbn; lia|]. remember (t0 :: ts0) as ts eqn:Ets.
    assert (Hc : forall t, In t ts -> chunk_word w t = i /\ a <= carrier order t < a + L).
    { intros t Ht. destruct (H t Ht) as [H1 H2]. split; [exact H1|]. apply Lost; [apply Car|exact H2]. }
    assert (1 <= L) by (destruct (Hc t0); [subst ts; left; reflexivity|lia]).
    pose proof (C156_burst m k q w order i a L ts Hk Hq Hw ltac:(lia) B Ndt Hc) as Bd.
    rewrite Z.div_small in Bd by lia. lia. }
  split.
  - intros i. rewrite filter_map, map_length. apply Main with i.
    + apply NoDup_filter, NoDup_filter, zrange_nodup.
    + intros t Ht. apply filter_In in Ht. destruct Ht as [Ht E]. apply filter_In in Ht. destruct Ht as [_ R]. cbn [fst] in E.
      split; [lia|]. destruct (received rx (carrier order t)); [discriminate|reflexivity].
  - intros i ts Ndt H. apply Main with i; [exact Ndt|]. intros t Ht. destruct (H t Ht) as (Hr & Hi & Ne). split; [exact Hi|].
    rewrite V in Ne by exact Hr. destruct (received rx (carrier order t)); [congruence|reflexivity]. Qed.
Print Assumptions C156_any_length.

(** Any number of packets, at least as many as chunks per word: one lost packet
    damages an instruction at most once. *)
Theorem C156_single : forall P w order t t', 0 < w -> (w | 32) -> 32 / w <= P -> build_2d_interleave_sp P = Ok order ->
  chunk_word w t = chunk_word w t' -> t <> t' -> carrier order t <> carrier order t'.
Proof. intros P w order t t' Hw [c Ec] HP B E Ne Eq. rewrite Ec, Z.div_mul in HP by lia.
  assert (Hc : 1 <= c) by nia. destruct (build_perm P) as [[rows (_ & B' & Pm)] _]; [lia|].
  rewrite B in B'. injection B' as ->. set (order := concat rows) in *.
  assert (Nd : NoDup order) by (apply Permutation_NoDup with (zrange 0 P); [symmetry; exact Pm|apply zrange_nodup]).
  assert (Ln : Z.of_nat (length order) = P) by (rewrite (Permutation_length Pm), zrange_length; lia).
  unfold carrier in Eq. rewrite Ln in Eq.
  pose proof (Z.mod_pos_bound t P ltac:(lia)) as M1. pose proof (Z.mod_pos_bound t' P ltac:(lia)) as M2.
  apply (proj1 (NoDup_nth order (-1)) Nd) in Eq; [|lia|lia].
  assert (Em : t mod P = t' mod P) by lia. clear Eq Nd Pm Ln B order rows.
  unfold chunk_word in E. rewrite Ec, (Z.mul_comm c w), !Z.div_mul_cancel_l in E by lia.
  pose proof (Z.div_mod t c ltac:(lia)). pose proof (Z.div_mod t' c ltac:(lia)).
  pose proof (Z.mod_pos_bound t c ltac:(lia)). pose proof (Z.mod_pos_bound t' c ltac:(lia)).
  pose proof (Z.div_mod t P ltac:(lia)). pose proof (Z.div_mod t' P ltac:(lia)).
  set (z := t / c) in *. rewrite <- E in *. set (a := t / P) in *. set (b := t' / P) in *.
  assert (D : t - t' = P * (a - b)) by lia. assert (-P < t - t' < P) by lia.
  assert (a - b = 0) by nia. nia. Qed.
Print Assumptions C156_single.

(** Non-vacuity, and the bound is exact: sixteen packets, sixteen-bit chunks
    ([m = 2], [k = 1], distance eight).  Losing packets 2 to 9 damages every
    instruction once; losing packet 10 as well damages instruction 1 twice. *)
Definition burst_order : list Z := match build_2d_interleave_sp 16 with Ok o => o | Err _ => [] end.
Definition burst_data : list Z := [1; 2; 3; 4; 5; 6; 7; 8].
Definition lose {A} (a b : Z) (tx : dict A) : dict (option A) :=
  map (fun kv => (fst kv, if (a <=? fst kv) && (fst kv <=? b) then None else Some (snd kv))) tx.
Example C156_example : exists tx words words',
  build_2d_interleave_sp (1 * 4 ^ 2) = Ok burst_order /\
  burst_order = [0; 8; 2; 10; 12; 4; 14; 6; 3; 11; 1; 9; 15; 7; 13; 5] /\
  interleave burst_data burst_order 16 = Ok tx /\
  deinterleave (lose 2 9 tx) burst_order 16 = Ok (words, [(0, 16); (1, 0); (2, 16); (3, 16); (4, 0); (5, 16); (6, 16); (7, 16)]) /\
  deinterleave (lose 2 10 tx) burst_order 16 =
    Ok (words', [(0, 16); (1, 0); (1, 16); (2, 16); (3, 16); (4, 0); (5, 16); (6, 16); (7, 16)]).
Proof. do 3 eexists. do 4 (split; [vm_compute; reflexivity|]). vm_compute; reflexivity. Qed.
