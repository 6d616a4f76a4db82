From Verif Require Import ListLemmas BitsModel BitsSpec BitsProofs QueueModel QueueSpec QueueProofs
  InterleaveModel InterleaveSpec.
From Coq Require Import ZifyBool ZifyNat.
Ltac Zify.zify_post_hook ::= Z.div_mod_to_equations.

(** ** Arithmetic of chunks *)
Lemma divisor_parts w : 0 < w -> (w | 32) -> w * (32 / w) = 32 /\ 0 < 32 / w /\ w <= 32.
Proof. intros Hw [n Hn]. assert (E : 32 / w = n) by (rewrite Hn; apply Z.div_mul; lia).
  rewrite E. clear E. assert (0 < n) by nia. repeat split; nia. Qed.

Lemma chunk_pos w n t : 0 < w -> w * n = 32 -> chunk_word w t = t / n /\ chunk_bit w t = w * (t mod n).
Proof. intros Hw E. unfold chunk_word, chunk_bit. rewrite <- E. rewrite Z.div_mul_cancel_l, Z.mul_mod_distr_l by nia. auto. Qed.

Lemma chunk_in_word w t : 0 < w -> (w | 32) -> in_word w (chunk_bit w t) = true.
Proof. intros Hw Hd. destruct (divisor_parts w Hw Hd) as (E & P & _).
  destruct (chunk_pos w (32 / w) t Hw E) as [_ ->]. unfold in_word.
  pose proof (Z.mod_pos_bound t (32 / w) P). set (n := 32 / w) in *. clearbody n.
  set (r := t mod n) in *. clearbody r. nia. Qed.

(** ** Interleaving as one pass over the chunks *)
Lemma word_loop order w n v : 0 < w -> w * n = 32 -> forall fuel j st, 0 <= j < n -> n - j <= Z.of_nat fuel ->
  interleave_word fuel order w v st (w * j) =
  let* st' := foldM (put_chunk order) (map (fun i => (v, w * i)) (zrange j n)) st in Ok (st', 0).
Proof. intros Hw E. induction fuel as [|fuel IH]; intros j st Hj Hf; [lia|].
  cbn [interleave_word]. rewrite zrange_cons by lia. cbn [map foldM].
  destruct (put_chunk order st (v, w * j)) as [st'|e]; cbn [bind]; [|reflexivity].
  destruct (Z.eq_dec (j + 1) n) as [En|En].
  - replace (w * j + w >? 31) with true by nia. rewrite zrange_nil by lia. cbn [map foldM bind].
    repeat f_equal. nia.
  - replace (w * j + w >? 31) with false by nia.
    replace (w * j + w) with (w * (j + 1)) by lia. apply IH; lia. Qed.

Definition chunk_ref (data : list Z) (w t : Z) : Z * Z :=
  (nth (Z.to_nat (chunk_word w t)) data 0, chunk_bit w t).

Lemma chunk_list data w n : 0 < w -> w * n = 32 ->
  flat_map (fun v => map (fun i => (v, w * i)) (zrange 0 n)) data =
  map (chunk_ref data w) (zrange 0 (Z.of_nat (length data) * n)).
Proof. intros Hw E. assert (Hn : 0 < n) by nia. induction data as [|v data IH]; [reflexivity|].
  cbn [flat_map length]. rewrite IH.
  rewrite (zrange_app 0 n (Z.of_nat (S (length data)) * n)) by nia. rewrite map_app. f_equal.
  - apply map_ext_in. intros t Ht. apply in_zrange in Ht. unfold chunk_ref.
    destruct (chunk_pos w n t Hw E) as [-> ->]. rewrite Z.div_small, Z.mod_small by lia. reflexivity.
  - replace (zrange n (Z.of_nat (S (length data)) * n))
      with (map (fun x => x + n) (zrange 0 (Z.of_nat (length data) * n)))
      by (rewrite zrange_shift; f_equal; lia).
    rewrite map_map. apply map_ext_in. intros t Ht. apply in_zrange in Ht. unfold chunk_ref.
    destruct (chunk_pos w n t Hw E) as [-> ->]. destruct (chunk_pos w n (t + n) Hw E) as [-> ->].
    replace (t + n) with (t + 1 * n) by lia. rewrite Z.div_add, Z.mod_add by lia.
    replace (Z.to_nat (t / n + 1)) with (S (Z.to_nat (t / n))); [reflexivity|].
    pose proof (Z.div_pos t n ltac:(lia) Hn). lia. Qed.

Lemma interleave_flat data order w : 0 < w -> (w | 32) ->
  interleave data order w =
  let* (packets, _) := foldM (put_chunk order) (map (chunk_ref data w) (zrange 0 (nchunks data w)))
                             (new_packets order w, O) in Ok packets.
Proof. intros Hw Hd. destruct (divisor_parts w Hw Hd) as (E & P & L).
  unfold interleave, nchunks. rewrite <- chunk_list by assumption.
  generalize (new_packets order w, O). intros st.
  assert (F : forall st, foldM (fun s v => let '(packets, k, bit) := s in interleave_word 33 order w v (packets, k) bit) data (st, 0)
     = let* st' := foldM (put_chunk order) (flat_map (fun v => map (fun i => (v, w * i)) (zrange 0 (32 / w))) data) st in Ok (st', 0)).
  { clear st. induction data as [|v data IH]; intros [pk k]; [reflexivity|]. cbn [foldM flat_map].
    rewrite foldM_app. replace 0 with (w * 0) at 1 by lia. rewrite (word_loop order w (32 / w) v Hw E) by nia.
    destruct (foldM (put_chunk order) (map (fun i : Z => (v, w * i)) (zrange 0 (32 / w))) (pk, k)) as [st'|e]; cbn [bind]; [apply IH|reflexivity]. }
  destruct st as [pk k].
  rewrite (F (pk, k)). destruct (foldM _ _ (pk, k)) as [[pk' k']|e]; reflexivity. Qed.

(** ** What each packet receives *)
Lemma dget_new_packets order w p : dget (new_packets order w) p = if in_dec Z.eq_dec p order then Some (bq_new w) else None.
Proof. unfold new_packets.
  assert (G : forall l d, dget (fold_left (fun d p => dset d p (bq_new w)) l d) p =
     if in_dec Z.eq_dec p l then Some (bq_new w) else dget d p).
  { induction l as [|a l IH]; intros d; cbn [fold_left]; [reflexivity|]. rewrite IH, dget_dset.
    destruct (in_dec Z.eq_dec p l) as [I|I], (in_dec Z.eq_dec p (a :: l)) as [J|J]; try reflexivity.
    - exfalso; apply J; right; exact I.
    - destruct J as [->|J]; [rewrite Z.eqb_refl; reflexivity|contradiction].
    - destruct (Z.eqb_spec p a) as [->|]; [exfalso; apply J; left; reflexivity|reflexivity]. }
  rewrite G. destruct in_dec; reflexivity. Qed.

Definition enq_of (c : Z * Z) : qop := QEnq (fst c) (snd c).

Lemma fold_put order w f : 0 < w -> (w | 32) -> order <> [] -> (forall t, in_word w (snd (f t)) = true) ->
  forall m t T packets, 0 <= t -> T = t + Z.of_nat m ->
  (forall p, In p order -> exists q cs, dget packets p = Some q /\ rep w q cs) ->
  exists packets' k', foldM (put_chunk order) (map f (zrange t T)) (packets, Z.to_nat (t mod Z.of_nat (length order))) = Ok (packets', k') /\
    dkeys packets' = dkeys packets /\
    forall p q, dget packets p = Some q -> exists xs q',
      bq_run q (map (fun t => enq_of (f t)) (filter (fun t => carrier order t =? p) (zrange t T))) = Ok (xs, q') /\
      dget packets' p = Some q'.
Proof. intros Hw Hd Hne Hf. set (P := Z.of_nat (length order)).
  assert (HP : 0 < P) by (subst P; destruct order; [congruence|cbn; lia]).
  induction m as [|m IH]; intros t T packets Ht HT Hpk.
  - rewrite zrange_nil by lia. do 2 eexists. split; [reflexivity|]. split; [reflexivity|]. intros p q H. exists [], q. split; [reflexivity|exact H].
  - rewrite zrange_cons by lia. cbn [map foldM].
    pose proof (Z.mod_pos_bound t P HP) as B.
    assert (Ep : nth_error order (Z.to_nat (t mod P)) = Some (carrier order t)).
    { unfold carrier. apply nth_error_nth'. subst P. lia. }
    assert (In (carrier order t) order) as Hin by (eapply nth_error_In; exact Ep).
    destruct (Hpk _ Hin) as (q & cs & Eq & Rq).
    destruct (f t) as [v b] eqn:Ef. pose proof (Hf t) as Hb. rewrite Ef in Hb. cbn [snd] in Hb.
    destruct (enqueue_rep w q cs v b Hw Hd Rq Hb) as (q' & Eq' & Rq').
    unfold put_chunk at 1. unfold nth_r, dget_r. rewrite Ep. cbn [bind]. rewrite Eq. cbn [bind fst snd]. rewrite Eq'. cbn [bind].
    replace (if (Z.to_nat (t mod P) =? length order - 1)%nat then 0%nat else S (Z.to_nat (t mod P)))
      with (Z.to_nat ((t + 1) mod P)).
    2:{ assert (E : (t + 1) mod P = if t mod P =? P - 1 then 0 else t mod P + 1).
        { destruct (Z.eqb_spec (t mod P) (P - 1)) as [E|E].
          - symmetry. apply Z.mod_unique with (t / P + 1); [lia|]. pose proof (Z.div_mod t P ltac:(lia)). nia.
          - symmetry. apply Z.mod_unique with (t / P); [lia|]. pose proof (Z.div_mod t P ltac:(lia)). lia. }
        rewrite E. subst P. destruct (Nat.eqb_spec (Z.to_nat (t mod Z.of_nat (length order))) (length order - 1)) as [X|X];
        destruct (Z.eqb_spec (t mod Z.of_nat (length order)) (Z.of_nat (length order) - 1)) as [Y|Y].
        - reflexivity.
        - exfalso; apply Y; clear -X HP B. generalize dependent (t mod Z.of_nat (length order)). intros; lia.
        - exfalso; apply X; clear -Y HP B. generalize dependent (t mod Z.of_nat (length order)). intros; lia.
        - clear -B HP. generalize dependent (t mod Z.of_nat (length order)). intros; lia. }
    destruct (IH (t + 1) T (dset packets (carrier order t) q') ltac:(lia) ltac:(lia)) as (pk' & k' & Efold & Ek & Hrun).
    { intros p Hp. rewrite dget_dset. destruct (Z.eqb_spec p (carrier order t)) as [->|]; [eauto|apply Hpk, Hp]. }
    exists pk', k'. split; [exact Efold|]. split.
    { rewrite Ek, dkeys_dset. unfold dmem. rewrite Eq. reflexivity. }
    intros p q0 Hq0. cbn [filter]. destruct (Z.eqb_spec (carrier order t) p) as [E|E].
    + subst p. assert (q0 = q) by congruence. subst q0.
      destruct (Hrun (carrier order t) q') as (xs & q2 & E1 & E2); [apply dget_dset_same|].
      exists (OUnit :: xs), q2. split; [|exact E2]. cbn [map bq_run]. rewrite Ef. cbn [enq_of fst snd bq_step].
      rewrite Eq'. cbn [bind]. rewrite E1. reflexivity.
    + destruct (Hrun p q0) as (xs & q2 & E1 & E2); [rewrite dget_dset_other by congruence; exact Hq0|].
      exists xs, q2. split; assumption. Qed.

Lemma carrier_in order t : order <> [] -> In (carrier order t) order.
Proof. intros H. unfold carrier. apply nth_In. destruct order as [|a l]; [congruence|].
  pose proof (Z.mod_pos_bound t (Z.of_nat (length (a :: l))) ltac:(cbn [length]; lia)). lia. Qed.

(** C13. *)
Lemma interleave_round_robin data order w : 0 < w -> (w | 32) -> order <> [] ->
  exists packets, interleave data order w = Ok packets /\
    (forall p, In p (dkeys packets) <-> In p order) /\ NoDup (dkeys packets) /\
    forall p, In p order -> exists xs q,
      bq_run (bq_new w)
        (map (fun t => QEnq (nth (Z.to_nat (chunk_word w t)) data 0) (chunk_bit w t))
           (filter (fun t => carrier order t =? p) (zrange 0 (nchunks data w)))) = Ok (xs, q) /\
      dget packets p = Some q.
Proof. intros Hw Hd Hne. rewrite interleave_flat by assumption.
  destruct (divisor_parts w Hw Hd) as (E & P & L).
  assert (Hr : forall p, In p order -> exists q cs, dget (new_packets order w) p = Some q /\ rep w q cs).
  { intros p Hp. exists (bq_new w), []. split; [|apply rep_new; assumption]. rewrite dget_new_packets.
    destruct in_dec; [reflexivity|contradiction]. }
  assert (HN : 0 <= nchunks data w) by (unfold nchunks; nia).
  destruct (fold_put order w (chunk_ref data w) Hw Hd Hne (fun t => chunk_in_word w t Hw Hd)
     (Z.to_nat (nchunks data w)) 0 (nchunks data w) (new_packets order w) ltac:(lia) ltac:(lia) Hr) as (pk & k & Ef & Ek & Hrun).
  rewrite Zmod_0_l in Ef. change (Z.to_nat 0) with O in Ef. exists pk. rewrite Ef. cbn [bind]. split; [reflexivity|].
  split; [|split].
  - intros p. rewrite Ek. rewrite dget_some_in. rewrite dget_new_packets.
    destruct in_dec; split; eauto; [|contradiction]. intros (a & H); discriminate.
  - rewrite Ek. unfold new_packets.
    assert (G : forall l d, NoDup (dkeys d) -> NoDup (dkeys (fold_left (fun d p => dset d p (bq_new w)) l d))).
    { induction l as [|a l IH]; intros d H; cbn [fold_left]; [exact H|]. apply IH, dset_nodup, H. }
    apply G. constructor.
  - intros p Hp. apply Hrun. rewrite dget_new_packets. destruct in_dec; [reflexivity|contradiction]. Qed.

(** Contents of one packet when the order has no repetition. *)
Definition rows (T P i : Z) : Z := (T - 1 - i) / P + 1.

Lemma rows_spec T P i s : 0 < P -> 0 <= i < P -> 0 <= T -> (s < rows T P i <-> s * P + i < T).
Proof. intros HP Hi HT. unfold rows. pose proof (Z.div_mod (T - 1 - i) P ltac:(lia)).
  pose proof (Z.mod_pos_bound (T - 1 - i) P HP). generalize dependent ((T - 1 - i) / P).
  generalize dependent ((T - 1 - i) mod P). intros. split; intros; nia. Qed.
Lemma rows_nonneg T P i : 0 < P -> 0 <= i < P -> 0 <= T -> 0 <= rows T P i.
Proof. intros. pose proof (rows_spec T P i (-1) ltac:(lia) ltac:(lia) ltac:(lia)). lia. Qed.

Lemma filter_mod P i : 0 < P -> 0 <= i < P -> forall m,
  filter (fun t => t mod P =? i) (zrange 0 (Z.of_nat m)) =
  map (fun s => s * P + i) (zrange 0 (rows (Z.of_nat m) P i)).
Proof. intros HP Hi. induction m as [|m IH].
  - rewrite zrange_nil by lia. rewrite (zrange_nil 0 (rows _ _ _)); [reflexivity|].
    pose proof (rows_spec (Z.of_nat 0) P i 0 ltac:(lia) ltac:(lia) ltac:(lia)). lia.
  - rewrite Nat2Z.inj_succ. unfold Z.succ. rewrite zrange_snoc by lia. rewrite filter_app, IH. cbn [filter].
    set (T := Z.of_nat m) in *. assert (HT : 0 <= T) by lia. clearbody T.
    pose proof (Z.div_mod T P ltac:(lia)) as DM. pose proof (Z.mod_pos_bound T P HP) as MB.
    pose proof (rows_nonneg T P i HP Hi HT).
    destruct (Z.eqb_spec (T mod P) i) as [E|E].
    + assert (R : rows T P i = T / P).
      { pose proof (rows_spec T P i (T / P) HP Hi HT). pose proof (rows_spec T P i (T / P - 1) HP Hi HT). nia. }
      assert (R' : rows (T + 1) P i = T / P + 1).
      { pose proof (rows_spec (T + 1) P i (T / P + 1) HP Hi ltac:(lia)). pose proof (rows_spec (T + 1) P i (T / P) HP Hi ltac:(lia)). nia. }
      rewrite R, R'. rewrite zrange_snoc by (apply Z.div_pos; lia). rewrite map_app. cbn [map]. do 2 f_equal. nia.
    + rewrite app_nil_r. do 2 f_equal.
      assert (forall s, s < rows T P i <-> s < rows (T + 1) P i).
      { intros s. rewrite !rows_spec by lia. split; [lia|]. intros. assert (s * P + i <> T); [|lia].
        intros E'. apply E. rewrite <- E'. rewrite Z.add_comm, Z.mod_add, Z.mod_small by lia. reflexivity. }
      destruct (Z.lt_trichotomy (rows T P i) (rows (T + 1) P i)) as [A|[A|A]]; [|exact A|];
      [apply (proj2 (H0 (rows T P i))) in A|apply (proj1 (H0 (rows (T + 1) P i))) in A]; lia. Qed.

Lemma nodup_carrier order i t : NoDup order -> 0 <= i < Z.of_nat (length order) ->
  (carrier order t =? nth (Z.to_nat i) order (-1)) = (t mod Z.of_nat (length order) =? i).
Proof. intros Hn Hi. unfold carrier. pose proof (Z.mod_pos_bound t (Z.of_nat (length order)) ltac:(lia)) as B.
  set (r := t mod Z.of_nat (length order)) in *. clearbody r.
  destruct (Z.eqb_spec r i) as [->|E]; [apply Z.eqb_refl|]. apply Z.eqb_neq. intros H.
  apply E. assert (Z.to_nat r = Z.to_nat i); [|lia]. eapply (proj1 (NoDup_nth order (-1)) Hn); [lia|lia|exact H]. Qed.

Lemma bq_run_enq_rep w q (f : Z -> Z * Z) ts xs : 0 < w -> (w | 32) -> (forall t, in_word w (snd (f t)) = true) ->
  bq_run (bq_new w) (map (fun t => enq_of (f t)) ts) = Ok (xs, q) ->
  rep w q (map (fun t => field (fst (f t)) (snd (f t)) w) ts).
Proof. intros Hw Hd Hf H. rewrite <- (map_map f enq_of) in H.
  change (map enq_of (map f ts)) with (enq_ops (map f ts)) in H.
  pose proof (run_rep w (enq_ops (map f ts)) Hw Hd (bq_new w) [] (rep_new w Hw Hd) (no_underflow_enq _ 0)) as R.
  rewrite fifo_enq_only in R.
  2:{ apply forallb_forall. intros e He. apply in_map_iff in He. destruct He as (t & <- & _). apply Hf. }
  destruct R as (q' & E & R). rewrite H in E. injection E as _ <-. cbn [app] in R. rewrite map_map in R. exact R. Qed.

Lemma packet_rep data order w packets i : 0 < w -> (w | 32) -> NoDup order ->
  interleave data order w = Ok packets -> 0 <= i < Z.of_nat (length order) ->
  exists q, dget packets (nth (Z.to_nat i) order (-1)) = Some q /\
    rep w q (map (fun s => chunk data w (s * Z.of_nat (length order) + i))
                 (zrange 0 (rows (nchunks data w) (Z.of_nat (length order)) i))).
Proof. intros Hw Hd Hn E Hi.
  assert (Hne : order <> []) by (intros ->; cbn in Hi; lia).
  destruct (interleave_round_robin data order w Hw Hd Hne) as (pk & E' & _ & _ & H).
  rewrite E in E'. injection E' as <-.
  destruct (H (nth (Z.to_nat i) order (-1))) as (xs & q & Hrun & Hq); [apply nth_In; lia|].
  exists q. split; [exact Hq|].
  pose proof (bq_run_enq_rep w q (chunk_ref data w) _ xs Hw Hd (fun t => chunk_in_word w t Hw Hd) Hrun) as R.
  destruct (divisor_parts w Hw Hd) as (_ & HP & _).
  assert (F : filter (fun t => carrier order t =? nth (Z.to_nat i) order (-1)) (zrange 0 (nchunks data w)) =
     map (fun s => s * Z.of_nat (length order) + i) (zrange 0 (rows (nchunks data w) (Z.of_nat (length order)) i))).
  { replace (nchunks data w) with (Z.of_nat (Z.to_nat (nchunks data w))) by (unfold nchunks; nia).
    rewrite <- filter_mod by lia. apply filter_ext. intros t. apply nodup_carrier; assumption. }
  rewrite F, map_map in R. exact R. Qed.
