(** C110 - C112: store_packets.py and the packet loss of recover_program.py. *)
From Verif Require Import ListLemmas BitsSpec QueueModel InterleaveModel InterleaveSpec InterleaveProofs FlipModel FlipSpec SPModel SPProofs
  PacketModel PacketSpec PredictProofs PacketProofs PacketProps StoreModel StoreSpec StoreProofs CompressSpec.
From Verif Require CompressModel CompressProps IoModel.
From Coq Require Import ZifyBool ZifyNat Permutation Sorted.

Definition word32 (v : Z) : Prop := 0 <= v < 2 ^ 32.

(** The packed program, and what SwapCompressor makes of it. *)
Lemma packed program : Forall word32 program ->
  exists buf, CompressModel.pack_words program = Ok buf /\
    length (CompressModel.tobytes (CompressModel.frombytes buf)) = (4 * length program)%nat /\
    forall p, 0 <= p < 32 * Z.of_nat (length program) -> stream_bit (CompressModel.tobytes (CompressModel.frombytes buf)) p = wire_bit program p.
Proof. intros F. eexists. split; [apply CompressProps.pack_words_ok, F|]. rewrite CompressProps.data_wire.
  destruct (CompressProps.tobytes_holds (map (wire_bit program) (zrange 0 (32 * Z.of_nat (length program))))) as (By & Ln & B).
  rewrite map_length, zrange_length in Ln.
  assert (Ln4 : length (CompressModel.tobytes (map (wire_bit program) (zrange 0 (32 * Z.of_nat (length program))))) = (4 * length program)%nat).
  { rewrite Ln. symmetry. apply (Nat.div_unique _ 8 _ 7); lia. }
  split; [exact Ln4|]. intros p Hp. rewrite B by lia.
  rewrite (nth_indep _ false (wire_bit program 0)) by (rewrite map_length, zrange_length; lia). rewrite map_nth, nth_zrange by lia. f_equal. lia. Qed.
Lemma swapped program es : Forall word32 program -> Forall entry_ok es ->
  exists f, CompressModel.swap_compress 2 (map to_entry es) program = Ok f /\ length f = (4 * length program)%nat /\
    forall p, 0 <= p < 32 * Z.of_nat (length program) ->
      stream_bit f p = wire_bit program p && negb (CompressProps.clears 2 (CompressModel.visited_entries (map to_entry es)) p).
Proof. intros F K. unfold CompressModel.swap_compress. rewrite (CompressProps.pack_words_ok program F). cbn [bind]. rewrite CompressProps.data_wire.
  destruct (CompressProps.swap_fold 2 (CompressModel.visited_entries (map to_entry es))) with (a := map (wire_bit program) (zrange 0 (32 * Z.of_nat (length program)))) as (a' & E & L & N).
  { intros e I. unfold CompressModel.visited_entries in I. apply in_rev in I.
    assert (I' : In e (CompressModel.sorted_entries (map to_entry es))) by (destruct (CompressModel.sorted_entries (map to_entry es)); [destruct I|right; exact I]).
    unfold CompressModel.sorted_entries in I'. apply (Permutation_in _ (sort_by_perm _ _)) in I'. apply in_map_iff in I'. destruct I' as (x & <- & Hx).
    rewrite Forall_forall in K. destruct (K x Hx). unfold CompressModel.start, to_entry. cbn [CompressModel.e_word CompressModel.e_bit]. lia. }
  rewrite E. cbn [bind]. eexists. split; [reflexivity|]. destruct (CompressProps.tobytes_holds a') as (By & Ln & B). rewrite L, map_length, zrange_length in Ln.
  assert (Ln4 : length (CompressModel.tobytes a') = (4 * length program)%nat). { rewrite Ln. symmetry. apply (Nat.div_unique _ 8 _ 7); lia. }
  split; [exact Ln4|]. intros p Hp. rewrite B, N by lia. f_equal.
  rewrite (nth_indep _ false (wire_bit program 0)) by (rewrite map_length, zrange_length; lia). rewrite map_nth, nth_zrange by lia. f_equal. lia. Qed.

Lemma mapM_index order lost (f : Z -> Z) : incl lost order -> exists bs, mapM (fun p => let* i := zindex order p in Ok (f i)) lost = Ok bs /\ length bs = length lost /\
  forall b, In b bs -> exists i, 0 <= i /\ b = f i.
Proof. induction lost as [|p lost IH]; intros I; [exists []; cbn; intuition|]. cbn [mapM].
  assert (Hp : In p order) by (apply I; left; reflexivity). apply zindex_in in Hp. destruct Hp as (k & Ek). pose proof (zindex_spec _ _ _ Ek) as [Bk _]. rewrite Ek. cbn [bind].
  destruct IH as (bs & E & L & H); [intros x Hx; apply I; right; exact Hx|]. rewrite E. cbn [bind]. exists (f k :: bs). split; [reflexivity|]. split; [cbn [length]; congruence|].
  intros b [<-|Hb]; [exists k; split; [lia|reflexivity]|auto]. Qed.

(** C110: both files would be written for every program.  In fact exactly for the
    programs of at least twenty instructions whose number is 0 or 1 modulo 4. *)
Theorem C110_store_partial : forall program, Forall word32 program -> let n := Z.of_nat (length program) in
  (20 <= n -> n mod 4 <= 1 -> exists first second, store_packets program = Ok (first, second) /\
     length first = (4 * length program)%nat /\ length second = (4 * length program)%nat) /\
  (n < 20 -> n mod 4 <= 1 -> store_packets program = Err IndexError) /\
  (2 <= n mod 4 -> store_packets program = Err TypeError).
Proof. intros program F n. unfold store_packets. fold n. destruct (Z.eq_dec n 0) as [Z0|Z0].
  { rewrite Z0. split; [lia|]. split; [intros _ _; reflexivity|cbn; lia]. }
  assert (Hn : 1 <= n) by lia. destruct (store_order_spec n Hn) as (O0 & O1 & O2). split; [|split].
  - intros H20 Hm. assert (O : exists o, store_packets_order n = Ok o /\ forall x, 0 <= x < n / 4 -> In x o).
    { pose proof (Z.mod_pos_bound n 4 ltac:(lia)). destruct (Z.eq_dec (n mod 4) 0) as [M|M]; [destruct (O0 M) as (o & Eo & Po)|destruct (O1 ltac:(lia)) as (o & Eo & Po)]; exists o; (split; [exact Eo|]); intros x Hx; apply (Permutation_in _ (Permutation_sym Po)).
      - apply in_zrange; lia. - right. apply in_zrange; lia. }
    destruct O as (o & Eo & Io). rewrite Eo. cbn [bind]. unfold predict_quarters.
    assert (D : 1 <= n / 20) by (apply Z.div_le_lower_bound; lia).
    assert (D4 : n / 20 <= n / 4) by (apply Z.div_le_compat_l; lia).
    destruct (mapM_index o (zrange 0 (n / 20)) (fun i => 2 * (2 * i))) as (bs & Em & L & Hb); [intros x Hx; apply in_zrange in Hx; apply Io; lia|].
    rewrite Em. cbn [bind]. rewrite zrange_length in L. destruct bs as [|b0 bs]; [cbn [length] in L; lia|].
    assert (Fb : Forall (fun b => 0 <= b) (b0 :: bs)) by (apply Forall_forall; intros b Ib; destruct (Hb b Ib) as (i & Hi & ->); lia).
    destruct (halves_loop_ok n (n * 4 * 32) ltac:(lia) (Z.to_nat (2 * (n * 4 * 32)) + 1) b0 bs []) as (errors & Ee & Ke).
    { inversion Fb; subst. lia. } { exact Fb. } { constructor. }
    rewrite Ee. cbn [bind]. destruct (swapped program errors F Ke) as (f1 & E1 & L1 & _). rewrite E1. cbn [bind].
    destruct (packed program F) as (buf & Eb & L2 & _). rewrite Eb. cbn [bind]. eauto.
  - intros H20 Hm. assert (D : n / 20 = 0) by (apply Z.div_small; lia). rewrite D.
    pose proof (Z.mod_pos_bound n 4 ltac:(lia)). destruct (Z.eq_dec (n mod 4) 0) as [M|M]; [destruct (O0 M) as (o & Eo & Po)|destruct (O1 ltac:(lia)) as (o & Eo & Po)]; rewrite Eo; cbn [bind]; reflexivity || (unfold predict_quarters; cbn [zrange mapM bind]; rewrite Nat.add_1_r; reflexivity).
  - intros Hm. rewrite (O2 Hm). reflexivity. Qed.
Print Assumptions C110_store_partial.
(** Nothing is stored for one instruction, nor for six. *)
Theorem C110_store_refuted : exists program, program <> [] /\ Forall word32 program /\ forall files, store_packets program <> Ok files.
Proof. exists [0xE1A00000]. split; [congruence|]. split; [repeat constructor; lia|]. intros files. vm_compute. congruence. Qed.
Print Assumptions C110_store_refuted.
Example C110_example : Forall word32 (repeat 0xE1A00000 20) /\ Z.of_nat (length (repeat 0xE1A00000 20)) mod 4 = 0 /\
  store_packets (repeat 0 6) = Err TypeError /\ store_packets (repeat 0 16) = Err IndexError /\ (exists f, store_packets (repeat 0 21) = Ok f).
Proof. split; [repeat constructor; lia|]. split; [reflexivity|]. split; [vm_compute; reflexivity|]. split; [vm_compute; reflexivity|]. eexists. vm_compute. reflexivity. Qed.

(** ** C111: which bits are cleared *)
Lemma entries_2 t e : 0 <= t -> In e (entries 2 (2 * t)) ->
  (e = (2 * t / 32, (2 * t) mod 32, None) /\ (2 * t) mod 32 <> 30) \/ ((2 * t) mod 32 = 30 /\ (e = (2 * t / 32, 30, Some 1) \/ e = (2 * t / 32 + 1, 0, Some 1))).
Proof. intros Ht. unfold entries. pose proof (Z.mod_pos_bound (2 * t) 32 ltac:(lia)). pose proof (Z.div_mod (2 * t) 32 ltac:(lia)).
  destruct ((2 * t) mod 32 + 2 >=? 32) eqn:E; cbn [In].
  - assert (M : (2 * t) mod 32 = 30) by lia. rewrite M. intros [<-|[<-|[]]]; right; auto.
  - intros [<-|[]]. left. split; [reflexivity|lia]. Qed.
Lemma cleared_bits n order errors : n mod 4 = 0 -> 20 <= n -> store_packets_order n = Ok order ->
  predict_corruption (n / 4) 2 (n * 4) order (zrange 0 (n / 20)) = Ok errors ->
  Forall entry_ok errors /\ forall p, 0 <= p < 32 * n ->
    (CompressProps.clears 2 (CompressModel.visited_entries (map to_entry errors)) p = true <->
     0 < p /\ p mod 2 = 0 /\ p mod 32 <> 30 /\ carrier order (p / 2) < n / 20).
Proof. intros Hm H20 Eo Ep. destruct (proj1 (store_order_spec n ltac:(lia)) Hm) as (o & Eo' & Po). assert (o = order) by congruence. subst o.
  pose proof (Z.div_mod n 4 ltac:(lia)) as Dn. assert (D : 1 <= n / 20) by (apply Z.div_le_lower_bound; lia). assert (D4 : n / 20 <= n / 4) by (apply Z.div_le_compat_l; lia).
  assert (Lo : Z.of_nat (length order) = n / 4) by (rewrite (Permutation_length Po), zrange_length; lia).
  assert (N : NoDup order) by (apply (Permutation_NoDup (Permutation_sym Po)), zrange_nodup).
  set (lost := zrange 0 (n / 20)) in *. assert (I : incl lost order) by (intros x Hx; apply in_zrange in Hx; apply (Permutation_in _ (Permutation_sym Po)), in_zrange; lia).
  assert (Hl : lost <> []) by (unfold lost; rewrite zrange_cons by lia; congruence).
  destruct (predict_exact order 2 (n * 4) lost ltac:(lia) N I Hl) as (errors' & Ep' & Nd & Ie). rewrite Lo in Ep'. assert (errors' = errors) by congruence. subst errors'.
  assert (An : forall t, announced order 2 (n * 4) lost t <-> 0 <= t < n * 4 * (32 / 2) /\ In (carrier order t) lost).
  { intros t. apply announced_whole; try assumption; try lia; [exists 16; lia|]. rewrite Lo. exists (4 * 4 * 16). change (32 / 2) with 16. lia. }
  assert (Ie' : forall e, In e errors <-> exists t, 0 <= t < 64 * n /\ 0 <= carrier order t < n / 20 /\ In e (entries 2 (2 * t))).
  { intros e. rewrite Ie. split; intros (t & H).
    - destruct H as [H He]. apply An in H. destruct H as [H1 H2]. apply in_zrange in H2. change (32 / 2) with 16 in H1. exists t. split; [lia|auto].
    - destruct H as (H1 & H2 & He). exists t. split; [apply An; change (32 / 2) with 16; split; [lia|apply in_zrange; exact H2]|exact He]. }
  clear Ie An. assert (Ok1 : Forall entry_ok errors).
  { apply Forall_forall. intros e He. apply Ie' in He. destruct He as (t & Ht & _ & He). pose proof (Z.mod_pos_bound (2 * t) 32 ltac:(lia)). assert (0 <= 2 * t / 32) by (apply Z.div_pos; lia).
    unfold entry_ok. apply entries_2 in He; [|lia]. destruct He as [[-> _]|[_ [-> | ->]]]; cbn [e_word e_bit fst snd]; lia. }
  split; [exact Ok1|]. destruct (order_head n order Eo) as (ot & Eot).
  assert (C0 : carrier order 0 = 0). { unfold carrier. rewrite Z.mod_0_l by lia. rewrite Eot. reflexivity. }
  assert (I0 : In (0, 0, None) errors) by (apply Ie'; exists 0; split; [lia|]; split; [lia|]; left; reflexivity).
  set (M := map to_entry errors). set (S := CompressModel.sorted_entries M).
  pose proof (sort_by_perm (fun e => CompressModel.e_word e * 10000 + CompressModel.e_bit e) M) as Ps. fold (CompressModel.sorted_entries M) in Ps. fold S in Ps.
  pose proof (sort_by_sorted (fun e => CompressModel.e_word e * 10000 + CompressModel.e_bit e) M) as Ss. fold (CompressModel.sorted_entries M) in Ss. fold S in Ss.
  assert (NM : NoDup M).
  { apply nodup_map_in; [exact Nd|]. intros x y Hx Hy E. apply Ie' in Hx, Hy. destruct Hx as (t & Ht & _ & Hx), Hy as (t' & Ht' & _ & Hy).
    apply entries_2 in Hx; [|lia]. apply entries_2 in Hy; [|lia].
    destruct Hx as [[-> _]|[_ [-> | ->]]], Hy as [[-> _]|[_ [-> | ->]]]; unfold to_entry in E; cbn [e_word e_bit e_len fst snd] in E; congruence. }
  assert (NS : NoDup S) by (apply (Permutation_NoDup (Permutation_sym Ps) NM)).
  assert (IM : forall y, In y S <-> exists x, In x errors /\ y = to_entry x).
  { intros y. split.
    - intros Hy. apply (Permutation_in _ Ps) in Hy. apply in_map_iff in Hy. destruct Hy as (x & <- & Hx). eauto.
    - intros (x & Hx & ->). apply (Permutation_in _ (Permutation_sym Ps)). apply in_map. exact Hx. }
  destruct S as [|h tl0] eqn:ES; [exfalso; assert (X : In (to_entry (0, 0, None)) []) by (apply IM; eauto); destruct X|].
  assert (Hh : h = CompressModel.Entry 0 0 false).
  { assert (X : In (to_entry (0, 0, None)) (h :: tl0)) by (apply IM; eauto). destruct X as [X|X]; [rewrite X; reflexivity|].
    inversion Ss as [|? ? _ Fh]; subst. rewrite Forall_forall in Fh. specialize (Fh _ X). cbn in Fh.
    destruct (proj1 (IM h) ltac:(left; reflexivity)) as (x & Hx & ->). rewrite Forall_forall in Ok1. destruct (Ok1 x Hx) as [O1 O2].
    unfold to_entry in *. cbn [CompressModel.e_word CompressModel.e_bit] in Fh. assert (Wx : e_word x = 0) by lia. assert (Bx : e_bit x = 0) by lia.
    apply Ie' in Hx. destruct Hx as (t & Ht & _ & Hx). apply entries_2 in Hx; [|lia]. assert (0 <= 2 * t / 32) by (apply Z.div_pos; lia).
    destruct Hx as [[-> _]|[_ [-> | ->]]]; cbn [e_word e_bit e_len fst snd] in *; [rewrite Wx, Bx; reflexivity|lia|lia]. }
  intros p Hp. unfold CompressProps.clears, CompressModel.visited_entries. fold M. change (CompressModel.sorted_entries M) with S. rewrite ES. cbn [tl]. change (0 <? 2) with true. cbn [andb].
  rewrite existsb_exists. split.
  - intros (e & He & Hs). apply in_rev in He. destruct (proj1 (IM e) ltac:(right; exact He)) as (x & Hx & ->).
    rewrite andb_true_iff in Hs. destruct Hs as [Hlong Hst]. apply Z.eqb_eq in Hst. pose proof Hx as Hx0.
    apply Ie' in Hx. destruct Hx as (t & Ht & Hc & Hx). apply entries_2 in Hx; [|lia]. destruct Hx as [[-> H30]|[_ [-> | ->]]]; try discriminate Hlong.
    unfold CompressModel.start, to_entry in Hst. cbn [e_word e_bit fst snd CompressModel.e_word CompressModel.e_bit] in Hst.
    pose proof (Z.div_mod (2 * t) 32 ltac:(lia)) as DM. assert (Ept : p = 2 * t) by lia. rewrite Ept.
    split. { destruct (Z.eq_dec t 0) as [->|]; [|lia]. exfalso. inversion NS; subst. contradiction. }
    split; [rewrite Z.mul_comm; apply Z.mod_mul; lia|]. split; [exact H30|]. replace (2 * t / 2) with t by (rewrite Z.mul_comm, Z.div_mul; lia). lia.
  - intros (Hp0 & Hev & H30 & Hc). set (t := p / 2) in *. assert (Ept : p = 2 * t) by (pose proof (Z.div_mod p 2 ltac:(lia)); unfold t; lia).
    assert (Hx : In (2 * t / 32, (2 * t) mod 32, None) errors).
    { apply Ie'. exists t. split; [lia|]. split; [split; [|exact Hc]|].
      - assert (Ci : In (carrier order t) order) by (apply carrier_in; rewrite Eot; congruence). apply (Permutation_in _ Po) in Ci. apply in_zrange in Ci. lia.
      - unfold entries. pose proof (Z.mod_pos_bound p 32 ltac:(lia)). pose proof (Z.div_mod p 32 ltac:(lia)). rewrite <- Ept. replace (p mod 32 + 2 >=? 32) with false by lia. left. reflexivity. }
    exists (to_entry (2 * t / 32, (2 * t) mod 32, None)). pose proof (Z.div_mod (2 * t) 32 ltac:(lia)). split.
    + apply -> in_rev. assert (X : In (to_entry (2 * t / 32, (2 * t) mod 32, None)) (h :: tl0)) by (apply IM; eauto). destruct X as [X|X]; [|exact X]. exfalso.
      rewrite Hh in X. unfold to_entry in X. cbn [e_word e_bit e_len fst snd] in X. pose proof (f_equal CompressModel.e_word X) as X1. pose proof (f_equal CompressModel.e_bit X) as X2. cbn [CompressModel.e_word CompressModel.e_bit] in X1, X2. lia.
    + unfold to_entry, CompressModel.start. cbn [e_word e_bit e_len fst snd CompressModel.e_word CompressModel.e_bit CompressModel.e_long negb andb]. rewrite Ept. apply Z.eqb_eq. lia. Qed.

(** C111: the first file would be the program with the bits of the first fifth of
    the packets cleared.  What is cleared, for every program that is stored whose
    length is a multiple of four: of each lost 2-bit chunk only its first bit on
    the wire, not at the end of a word, and never the very first one. *)
Theorem C111_stored_bits_partial : forall program, Forall word32 program -> let n := Z.of_nat (length program) in
  n mod 4 = 0 -> 20 <= n ->
  exists order first second, build_2d_interleave_sp (n / 4) = Ok order /\ store_packets program = Ok (first, second) /\
    length first = (4 * length program)%nat /\ length second = (4 * length program)%nat /\
    forall p, 0 <= p < 32 * n ->
      stream_bit second p = wire_bit program p /\
      (stream_bit first p <> stream_bit second p <->
       stream_bit second p = true /\ 0 < p /\ p mod 2 = 0 /\ p mod 32 <> 30 /\ carrier order (p / 2) < n / 20).
Proof. intros program F n Hm H20. pose proof (Z.div_mod n 4 ltac:(lia)) as Dn. destruct (proj1 (store_order_spec n ltac:(lia)) Hm) as (order & Eo & Po).
  assert (D : 1 <= n / 20) by (apply Z.div_le_lower_bound; lia). assert (D4 : n / 20 <= n / 4) by (apply Z.div_le_compat_l; lia).
  assert (Lo : Z.of_nat (length order) = n / 4) by (rewrite (Permutation_length Po), zrange_length; lia).
  assert (N : NoDup order) by (apply (Permutation_NoDup (Permutation_sym Po)), zrange_nodup).
  destruct (predict_exact order 2 (n * 4) (zrange 0 (n / 20)) ltac:(lia) N) as (errors & Ep & _ & _).
  { intros x Hx; apply in_zrange in Hx; apply (Permutation_in _ (Permutation_sym Po)), in_zrange; lia. } { rewrite zrange_cons by lia; congruence. }
  rewrite Lo in Ep. destruct (cleared_bits n order errors Hm H20 Eo Ep) as (Ok1 & Hc).
  destruct (swapped program errors F Ok1) as (f1 & E1 & L1 & B1). destruct (packed program F) as (buf & Eb & L2 & B2).
  exists order, f1, (CompressModel.tobytes (CompressModel.frombytes buf)). split.
  { unfold build_2d_interleave_sp. replace (4 * (n / 4)) with n by lia. exact Eo. }
  split. { unfold store_packets. fold n. rewrite Eo. cbn [bind]. assert (Eq : predict_quarters n (n * 4) order (zrange 0 (n / 20)) = Ok errors).
    { replace n with (4 * (n / 4)) at 1 by lia. apply predict_quarters_whole; [exact Ep|lia]. }
    rewrite Eq. cbn [bind]. rewrite E1. cbn [bind]. rewrite Eb. reflexivity. }
  split; [exact L1|]. split; [exact L2|]. intros p Hp. rewrite B1, B2 by (fold n; exact Hp). split; [reflexivity|]. specialize (Hc p Hp).
  destruct (CompressProps.clears 2 (CompressModel.visited_entries (map to_entry errors)) p); destruct (wire_bit program p); cbn [andb negb]; split; intros H; try congruence; try (split; [reflexivity|apply Hc; reflexivity]).
  all: destruct H as [H1 H2]; try discriminate; apply Hc in H2; discriminate. Qed.
Print Assumptions C111_stored_bits_partial.

(** Twenty words of ones: packet 0 is lost and carries bits 0 and 1, which stay set,
    whether bits are counted on the wire or from the low end of the first word. *)
Theorem C111_stored_bits_refuted : exists program order first second, Forall word32 program /\ length program = 20%nat /\
  build_2d_interleave_sp 5 = Ok order /\ store_packets program = Ok (first, second) /\
  lost_bit order 2 20 (zrange 0 (20 / 20)) 1 /\ stream_bit first 1 = true /\ lost_bit order 2 20 (zrange 0 (20 / 20)) 0 /\ Z.testbit (nth 0 first 0) 0 = true.
Proof. exists (repeat 0xFFFFFFFF 20). do 3 eexists. split; [repeat constructor; lia|]. split; [reflexivity|]. split; [vm_compute; reflexivity|]. split; [vm_compute; reflexivity|].
  split; [split; [lia|vm_compute; auto]|]. split; [reflexivity|]. split; [split; [lia|vm_compute; auto]|reflexivity]. Qed.
Print Assumptions C111_stored_bits_refuted.
Example C111_example : rmap (fun f => firstn 8 (fst f)) (store_packets (repeat 0xFFFFFFFF 20)) = Ok [255; 223; 247; 255; 255; 127; 223; 247].
Proof. vm_compute. reflexivity. Qed.

(** Also when the number of packets is no whole number: packet [q], first placed at
    [i] in the order, is taken to lose a bit every [n / 2] bits from bit [2 i] on. *)
Definition struck (n : Z) (order : list Z) (p : Z) : Prop :=
  exists q i k, 0 <= q < n / 20 /\ first_at order q i /\ 0 <= k /\ p = (4 * i + k * n) / 2.
Lemma predicted_all n order : n mod 4 <= 1 -> 20 <= n -> store_packets_order n = Ok order ->
  exists errors, predict_quarters n (n * 4) order (zrange 0 (n / 20)) = Ok errors /\ NoDup errors /\ Forall entry_ok errors /\
    In (0, 0, None) errors /\
    (forall e, In e errors -> exists b, 0 <= b /\ In e (entries 2 b) /\ struck n order b) /\
    (forall b e, 0 <= b < 32 * n -> struck n order b -> In e (entries 2 b) -> In e errors).
Proof. intros Hm H20 Eo. pose proof (Z.mod_pos_bound n 4 ltac:(lia)).
  assert (D : 1 <= n / 20) by (apply Z.div_le_lower_bound; lia). assert (D4 : n / 20 <= n / 4) by (apply Z.div_le_compat_l; lia).
  assert (Io : forall x, 0 <= x < n / 4 -> In x order).
  { destruct (store_order_spec n ltac:(lia)) as (O0 & O1 & _). intros x Hx. destruct (Z.eq_dec (n mod 4) 0) as [M|M]; [destruct (O0 M) as (o & Eo' & Po)|destruct (O1 ltac:(lia)) as (o & Eo' & Po)]; assert (o = order) by congruence; subst o; apply (Permutation_in _ (Permutation_sym Po)); [|right]; apply in_zrange; lia. }
  destruct (starts_first order (fun i => 2 * (2 * i)) (zrange 0 (n / 20))) as (bs & Em & Hb & H0); [intros x Hx; apply in_zrange in Hx; apply Io; lia|].
  destruct (order_head n order Eo) as (ot & Eot).
  assert (F0 : first_at order 0 0) by (rewrite Eot; split; [cbn [length]; lia|]; split; [reflexivity|]; intros; lia).
  destruct (H0 0 (zrange 1 (n / 20)) ltac:(apply zrange_cons; lia) 0 F0) as (bt & Ebt). change (2 * (2 * 0)) with 0 in Ebt. subst bs.
  unfold predict_quarters. rewrite Em. cbn [bind].
  destruct (halves_loop_spec n (n * 4 * 32) ltac:(lia) (Z.to_nat (2 * (n * 4 * 32)) + 1) 0 bt []) as (errors & Ee & Nd & Ie).
  { left. apply Z.lt_le_trans with (1 * Z.of_nat (Z.to_nat (2 * (n * 4 * 32)) + 1)); [lia|]. rewrite Z.mul_comm. apply Z.mul_le_mono_nonneg_l; lia. } { constructor. }
  assert (S0 : forall b, In b (0 :: bt) <-> exists q i, 0 <= q < n / 20 /\ first_at order q i /\ b = 4 * i).
  { intros b. rewrite Hb. split; intros (q & i & Hq & Hi & E); exists q, i; rewrite ?in_zrange in *; (split; [lia|]; split; [exact Hi|lia]). }
  assert (Fwd : forall e, In e errors -> exists b, 0 <= b /\ In e (entries 2 b) /\ struck n order b).
  { intros e He. apply Ie in He. destruct He as [[]|(b & r & Ib & Hr & _ & _ & He)]. apply S0 in Ib. destruct Ib as (q & i & Hq & Hi & ->).
    exists ((4 * i + r * n) / 2). split; [apply Z.div_pos; [|lia]; destruct Hi; pose proof (Z.mul_nonneg_nonneg r n ltac:(lia) ltac:(lia)); lia|]. split; [exact He|]. exists q, i, r. auto. }
  assert (Bwd : forall b e, 0 <= b < 32 * n -> struck n order b -> In e (entries 2 b) -> In e errors).
  { intros b e Hb0 (q & i & k & Hq & Hi & Hk & Eb) He. apply Ie. right. exists (4 * i), k. split; [apply S0; eauto|]. split; [exact Hk|]. rewrite <- Eb. split; [|split; [lia|exact He]].
    pose proof (Z.div_mod (4 * i + k * n) 2 ltac:(lia)). pose proof (Z.mod_pos_bound (4 * i + k * n) 2 ltac:(lia)). destruct Hi. lia. }
  exists errors. split; [exact Ee|]. split; [exact Nd|]. split; [|split; [|auto]].
  - apply Forall_forall. intros e He. destruct (Fwd e He) as (b & Hb0 & He' & _). pose proof (Z.mod_pos_bound b 32 ltac:(lia)). assert (0 <= b / 32) by (apply Z.div_pos; lia).
    unfold entries in He'. unfold entry_ok. destruct (b mod 32 + 2 >=? 32); cbn [In] in He'; destruct He' as [<-|He']; cbn [e_word e_bit fst snd]; try lia; destruct He' as [<-|[]]; cbn [e_word e_bit fst snd]; lia.
  - apply (Bwd 0); [lia| |left; reflexivity]. exists 0, 0, 0. split; [lia|]. split; [exact F0|]. split; [lia|]. reflexivity. Qed.
Lemma entries_2_any b e : In e (entries 2 b) -> (e = (b / 32, b mod 32, None) /\ b mod 32 < 30) \/ (30 <= b mod 32 /\ exists k, e_len e = Some k).
Proof. unfold entries. pose proof (Z.mod_pos_bound b 32 ltac:(lia)). destruct (b mod 32 + 2 >=? 32) eqn:E; cbn [In].
  - intros [<-|[<-|[]]]; right; (split; [lia|]); eexists; reflexivity.
  - intros [<-|[]]. left. split; [reflexivity|lia]. Qed.
Lemma cleared_all n order errors : n mod 4 <= 1 -> 20 <= n -> store_packets_order n = Ok order ->
  predict_quarters n (n * 4) order (zrange 0 (n / 20)) = Ok errors ->
  forall p, 0 <= p < 32 * n ->
    (CompressProps.clears 2 (CompressModel.visited_entries (map to_entry errors)) p = true <-> 0 < p /\ p mod 32 < 30 /\ struck n order p).
Proof. intros Hm H20 Eo Ep. destruct (predicted_all n order Hm H20 Eo) as (errors' & Ep' & Nd & Ok1 & I0 & Fwd & Bwd). assert (errors' = errors) by congruence. subst errors'. clear Ep Ep'.
  set (M := map to_entry errors). set (S := CompressModel.sorted_entries M).
  pose proof (sort_by_perm (fun e => CompressModel.e_word e * 10000 + CompressModel.e_bit e) M) as Ps. fold (CompressModel.sorted_entries M) in Ps. fold S in Ps.
  pose proof (sort_by_sorted (fun e => CompressModel.e_word e * 10000 + CompressModel.e_bit e) M) as Ss. fold (CompressModel.sorted_entries M) in Ss. fold S in Ss.
  assert (IM : forall y, In y S <-> exists x, In x errors /\ y = to_entry x).
  { intros y. split.
    - intros Hy. apply (Permutation_in _ Ps) in Hy. apply in_map_iff in Hy. destruct Hy as (x & <- & Hx). eauto.
    - intros (x & Hx & ->). apply (Permutation_in _ (Permutation_sym Ps)). apply in_map. exact Hx. }
  (* only one entry has place 0 *)
  assert (Z0 : forall x, In x errors -> e_word x = 0 -> e_bit x = 0 -> x = (0, 0, None)).
  { intros x Hx Wx Bx. destruct (Fwd x Hx) as (b & Hb & He & _). pose proof (Z.mod_pos_bound b 32 ltac:(lia)). assert (0 <= b / 32) by (apply Z.div_pos; lia).
    unfold entries in He. destruct (b mod 32 + 2 >=? 32) eqn:Eb; cbn [In] in He.
    - destruct He as [<-|[<-|[]]]; cbn [e_word e_bit fst snd] in *; lia.
    - destruct He as [<-|[]]; cbn [e_word e_bit fst snd] in *. rewrite Wx, Bx. reflexivity. }
  assert (One : count_occ Bool.bool_dec (map (fun y => (CompressModel.e_word y =? 0) && (CompressModel.e_bit y =? 0)) S) true = 1%nat).
  { transitivity (count_occ Bool.bool_dec (map (fun y => (CompressModel.e_word y =? 0) && (CompressModel.e_bit y =? 0)) M) true).
    { apply Permutation_count_occ, Permutation_map, Ps. }
    unfold M. rewrite map_map. cbn [to_entry CompressModel.e_word CompressModel.e_bit]. clear - Nd I0 Z0. induction errors as [|x l IH]; [destruct I0|]. inversion Nd as [|? ? N1 N2]; subst. cbn [map count_occ].
    destruct I0 as [->|I0].
    - change ((e_word (0, 0, None) =? 0) && (e_bit (0, 0, None) =? 0)) with true. destruct (Bool.bool_dec true true) as [_|C]; [|congruence]. f_equal. apply count_occ_not_In. intros C. apply in_map_iff in C. destruct C as (y & Ey & Iy).
      apply N1. rewrite <- (Z0 y); [exact Iy|right; exact Iy| |]; lia.
    - destruct ((e_word x =? 0) && (e_bit x =? 0)) eqn:Ex.
      + exfalso. apply N1. rewrite (Z0 x); [exact I0|left; reflexivity| |]; lia.
      + destruct (Bool.bool_dec false true) as [C|_]; [discriminate|]. apply IH; auto. intros y Hy. apply Z0. right. exact Hy. }
  destruct S as [|h tl0] eqn:ES; [discriminate One|].
  assert (Hh : CompressModel.e_word h = 0 /\ CompressModel.e_bit h = 0).
  { assert (X : In (to_entry (0, 0, None)) (h :: tl0)) by (apply IM; eauto). destruct X as [X|X]; [rewrite X; split; reflexivity|].
    inversion Ss as [|? ? _ Fh]; subst. rewrite Forall_forall in Fh. specialize (Fh _ X). cbn in Fh.
    destruct (proj1 (IM h) ltac:(left; reflexivity)) as (x & Hx & ->). rewrite Forall_forall in Ok1. destruct (Ok1 x Hx) as [O1 O2].
    unfold to_entry in *. cbn [CompressModel.e_word CompressModel.e_bit] in *. lia. }
  assert (Tl : forall y, In y tl0 -> ~ (CompressModel.e_word y = 0 /\ CompressModel.e_bit y = 0)).
  { intros y Hy [Y1 Y2]. cbn [map count_occ] in One. destruct Hh as [H1 H2]. rewrite H1, H2 in One. change ((0 =? 0) && (0 =? 0)) with true in One. destruct (Bool.bool_dec true true) as [_|C]; [|congruence]. injection One as One.
    apply count_occ_not_In in One. apply One, in_map_iff. exists y. split; [rewrite Y1, Y2; reflexivity|exact Hy]. }
  intros p Hp. unfold CompressProps.clears, CompressModel.visited_entries. fold M. change (CompressModel.sorted_entries M) with S. rewrite ES. cbn [tl]. change (0 <? 2) with true. cbn [andb].
  rewrite existsb_exists. split.
  - intros (e & He & Hs). apply in_rev in He. pose proof (Tl e He) as T0. destruct (proj1 (IM e) ltac:(right; exact He)) as (x & Hx & ->).
    rewrite andb_true_iff in Hs. destruct Hs as [Hlong Hst]. apply Z.eqb_eq in Hst.
    destruct (Fwd x Hx) as (b & Hb & Hxb & Hs). apply entries_2_any in Hxb. destruct Hxb as [[-> H30]|[_ (k & Hk)]]; [|unfold to_entry in Hlong; rewrite Hk in Hlong; discriminate Hlong].
    unfold CompressModel.start, to_entry in Hst. cbn [e_word e_bit fst snd CompressModel.e_word CompressModel.e_bit to_entry] in Hst, T0.
    pose proof (Z.div_mod b 32 ltac:(lia)) as DM. assert (Ept : p = b) by lia. rewrite Ept. split; [|split; assumption].
    destruct (Z.eq_dec b 0) as [E0|]; [|lia]. exfalso. apply T0. rewrite E0. split; reflexivity.
  - intros (Hp0 & H30 & Hs). pose proof (Z.mod_pos_bound p 32 ltac:(lia)). pose proof (Z.div_mod p 32 ltac:(lia)).
    assert (Hx : In (p / 32, p mod 32, None) errors). { apply (Bwd p); [exact Hp|exact Hs|]. unfold entries. replace (p mod 32 + 2 >=? 32) with false by lia. left. reflexivity. }
    exists (to_entry (p / 32, p mod 32, None)). split.
    + apply -> in_rev. assert (X : In (to_entry (p / 32, p mod 32, None)) (h :: tl0)) by (apply IM; eauto). destruct X as [X|X]; [|exact X]. exfalso.
      rewrite X in Hh. unfold to_entry in Hh. cbn [CompressModel.e_word CompressModel.e_bit e_word e_bit fst snd] in Hh. lia.
    + unfold to_entry, CompressModel.start. cbn [e_word e_bit e_len fst snd CompressModel.e_word CompressModel.e_bit CompressModel.e_long negb andb]. apply Z.eqb_eq. lia. Qed.
Theorem C111_every_length : forall program, Forall word32 program -> let n := Z.of_nat (length program) in
  n mod 4 <= 1 -> 20 <= n ->
  exists order first second, store_packets_order n = Ok order /\ store_packets program = Ok (first, second) /\
    length first = (4 * length program)%nat /\ length second = (4 * length program)%nat /\
    forall p, 0 <= p < 32 * n ->
      stream_bit second p = wire_bit program p /\
      (stream_bit first p <> stream_bit second p <-> stream_bit second p = true /\ 0 < p /\ p mod 32 < 30 /\ struck n order p).
Proof. intros program F n Hm H20. pose proof (Z.mod_pos_bound n 4 ltac:(lia)).
  assert (O : exists o, store_packets_order n = Ok o). { destruct (store_order_spec n ltac:(lia)) as (O0 & O1 & _). destruct (Z.eq_dec (n mod 4) 0) as [M|M]; [destruct (O0 M) as (o & Eo & _)|destruct (O1 ltac:(lia)) as (o & Eo & _)]; eauto. }
  destruct O as (order & Eo). destruct (predicted_all n order Hm H20 Eo) as (errors & Ep & Nd & Ok1 & _). pose proof (cleared_all n order errors Hm H20 Eo Ep) as Hc.
  destruct (swapped program errors F Ok1) as (f1 & E1 & L1 & B1). destruct (packed program F) as (buf & Eb & L2 & B2).
  exists order, f1, (CompressModel.tobytes (CompressModel.frombytes buf)). split; [exact Eo|].
  split. { unfold store_packets. fold n. rewrite Eo. cbn [bind]. rewrite Ep. cbn [bind]. rewrite E1. cbn [bind]. rewrite Eb. reflexivity. }
  split; [exact L1|]. split; [exact L2|]. intros p Hp. rewrite B1, B2 by (fold n; exact Hp). split; [reflexivity|]. specialize (Hc p Hp).
  destruct (CompressProps.clears 2 (CompressModel.visited_entries (map to_entry errors)) p); destruct (wire_bit program p); cbn [andb negb]; split; intros H'; try congruence; try (split; [reflexivity|apply Hc; reflexivity]).
  all: destruct H' as [H1 H2]; try discriminate; apply Hc in H2; discriminate. Qed.
Print Assumptions C111_every_length.
(** Twenty-one words: bits 2 i + 10.5 k are cleared for packet 0 (i = 0). *)
Example C111_example_odd : store_packets_order 21 = Ok [0; 2; 4; 0; 3; 1] /\ rmap (fun f => firstn 4 (fst f)) (store_packets (repeat 0xFFFFFFFF 21)) = Ok [255; 223; 251; 255].
Proof. split; vm_compute; reflexivity. Qed.

(** ** C112: the built-in loss of recover_program.py *)
Theorem C112_default_loss_partial : forall prog, good_program prog -> let ll := Z.of_nat (length prog) in
  (97 <= ll -> exists prog', default_loss prog = Ok prog' /\ dkeys prog' = dkeys prog /\
     forall a l, dget prog a = Some l -> exists l', dget prog' a = Some l' /\ forall i, In i l -> In (i_enc i) (map i_enc l')) /\
  (1 <= ll <= 96 -> default_loss prog = Err ValueError) /\
  (ll = 0 -> default_loss prog = Err IndexError).
Proof. intros prog G ll. unfold default_loss. fold ll. set (P := - (- ll / 32)).
  assert (HP : 32 * (P - 1) < ll <= 32 * P) by (unfold P; pose proof (Z.div_mod (- ll) 32 ltac:(lia)); pose proof (Z.mod_pos_bound (- ll) 32 ltac:(lia)); lia).
  destruct (build_perm P) as [B1 B0]. split; [|split].
  - intros H. destruct (B1 ltac:(lia)) as (rows & _ & Eb & Pm). set (order := concat rows) in *.
    assert (Lo : Z.of_nat (length order) = P) by (rewrite (Permutation_length Pm), zrange_length; lia).
    assert (N : NoDup order) by (apply (Permutation_NoDup (Permutation_sym Pm)), zrange_nodup).
    assert (I : incl [3] order) by (intros x [<-|[]]; apply (Permutation_in _ (Permutation_sym Pm)), in_zrange; lia).
    rewrite (proj2 (C18_arguments P 2 ll order [] [3] prog) Eb) by (intros E0; rewrite E0 in Lo; cbn [length] in Lo; lia). rewrite <- Lo.
    destruct (C18_keeps_program_partial order 2 ll [3] prog ltac:(lia) N I ltac:(congruence) G) as [K _].
    destruct K as (prog' & Ec & Ek & Ed).
    { assert (H3 : In 3 order) by (apply I; left; reflexivity). apply zindex_in in H3. destruct H3 as (k & Ekk). apply zindex_spec in Ekk. destruct Ekk as [Bk Ekk].
      exists k. split; [exact Bk|]. split; [unfold carrier; rewrite Z.mod_small by exact Bk; rewrite Ekk; reflexivity|lia]. }
    exists prog'. split; [exact Ec|]. split; [exact Ek|]. intros a l Ha. destruct (Ed a l Ha) as (l' & El & _ & Hi). eauto.
  - intros H. destruct (B1 ltac:(lia)) as (rows & _ & Eb & Pm). unfold packet_corrupt. rewrite Eb. cbn [bind]. unfold predict_corruption. cbn [mapM].
    destruct (zindex (concat rows) 3) as [k|e] eqn:Ez.
    + exfalso. assert (H3 : In 3 (concat rows)) by (apply zindex_in; eauto). apply (Permutation_in _ Pm), in_zrange in H3. lia.
    + assert (e = ValueError) as ->; [|reflexivity]. clear - Ez. revert e Ez. generalize (concat rows). intros l. induction l as [|y l IH]; intros e; cbn [zindex]; [congruence|].
      destruct (y =? 3); [discriminate|]. destruct (zindex l 3); cbn [rmap]; [discriminate|]. intros E. injection E as <-. apply IH. reflexivity.
  - intros H. assert (HP0 : P <= 0) by lia. unfold packet_corrupt. rewrite (proj2 (B0 HP0)). reflexivity. Qed.
Print Assumptions C112_default_loss_partial.
Theorem C112_default_loss_refuted : exists prog, prog <> [] /\ good_program prog /\ default_loss prog = Err ValueError.
Proof. exists [(0, [mkInst 0xE1A00000 0])]. split; [congruence|]. split; [split; [repeat constructor; cbn; intuition lia|repeat constructor; cbn; lia]|]. vm_compute. reflexivity. Qed.
Print Assumptions C112_default_loss_refuted.
Example C112_example : let prog := map (fun k => (4 * k, [mkInst 0xE1A00000 (4 * k)])) (zrange 0 97) in
  Z.of_nat (length prog) = 97 /\ rmap (fun p => map (fun kv => length (snd kv)) (firstn 4 p)) (default_loss prog) = Ok [256; 256; 256; 256]%nat.
Proof. split; vm_compute; reflexivity. Qed.
