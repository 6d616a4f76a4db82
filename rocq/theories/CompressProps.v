(** C60, C61, C77: the bit compressors and the register changer. *)
From Verif Require Import ListLemmas IoModel IoProofs CompressModel CompressSpec HuffmanProps HuffmanSpec.
From Coq Require Import ZifyBool ZifyNat Permutation Sorted.

(** ** Bits and bytes *)
Definition word32 (v : Z) : Prop := 0 <= v < 2 ^ 32.
Lemma pack_words_ok data : Forall word32 data -> pack_words data = Ok (flat_map (le_bytes 4) data).
Proof. intros F. unfold pack_words. assert (G : mapM (pack 4) data = Ok (map (le_bytes 4) data)). { induction F as [|v data H F IH]; [reflexivity|]. cbn [mapM map]. rewrite pack_ok by exact H. cbn [bind]. rewrite IH. reflexivity. }
  rewrite G. cbn [rmap]. rewrite flat_map_concat_map. reflexivity. Qed.
Lemma byte_testbit v k i : 0 <= k -> 0 <= i < 8 -> Z.testbit ((v / 2 ^ k) mod 256) i = Z.testbit v (i + k).
Proof. intros Hk Hi. change 256 with (2 ^ 8). rewrite Z.mod_pow2_bits_low by lia. apply Z.div_pow2_bits; lia. Qed.
Lemma word_wire v : frombytes (le_bytes 4 v) = map (fun n => Z.testbit v (8 * (n mod 32 / 8) + 7 - n mod 8)) (zrange 0 32).
Proof. assert (E : le_bytes 4 v = [(v / 2 ^ 0) mod 256; (v / 2 ^ 8) mod 256; (v / 2 ^ 16) mod 256; (v / 2 ^ 24) mod 256]).
  { cbn [le_bytes]. rewrite !Z.div_div by lia. rewrite Z.pow_0_r, Z.div_1_r. reflexivity. }
  rewrite E. unfold frombytes. cbn [flat_map]. unfold byte_bits. change (zrange 0 8) with [0; 1; 2; 3; 4; 5; 6; 7]. cbn [map app]. rewrite !byte_testbit by lia. reflexivity. Qed.
Lemma data_wire data : frombytes (flat_map (le_bytes 4) data) = map (wire_bit data) (zrange 0 (32 * Z.of_nat (length data))).
Proof. induction data as [|v data IH]; [reflexivity|]. cbn [flat_map]. unfold frombytes. rewrite flat_map_app. fold (frombytes (le_bytes 4 v)) (frombytes (flat_map (le_bytes 4) data)). rewrite word_wire, IH.
  replace (32 * Z.of_nat (length (v :: data))) with (32 + 32 * Z.of_nat (length data)) by (cbn [length]; lia). rewrite (zrange_app 0 32 (32 + 32 * Z.of_nat (length data))) by lia. rewrite map_app. apply (f_equal2 (@app bool)).
  - apply map_ext_in. intros n I. apply in_zrange in I. unfold wire_bit. rewrite (Z.div_small n 32) by lia. reflexivity.
  - replace (zrange 32 (32 + 32 * Z.of_nat (length data))) with (map (fun x => x + 32) (zrange 0 (32 * Z.of_nat (length data)))) by (rewrite zrange_shift; f_equal; lia). rewrite map_map. apply map_ext_in. intros n I. apply in_zrange in I. unfold wire_bit.
    replace ((n + 32) / 32) with (n / 32 + 1) by (rewrite <- (Z.div_add n 1 32) by lia; f_equal; lia). replace ((n + 32) mod 32) with (n mod 32) by (rewrite <- (Z.mod_add n 1 32) by lia; f_equal; lia). replace ((n + 32) mod 8) with (n mod 8) by (rewrite <- (Z.mod_add n 4 8) by lia; f_equal; lia).
    assert (0 <= n / 32) by (apply Z.div_pos; lia). replace (Z.to_nat (n / 32 + 1)) with (S (Z.to_nat (n / 32))) by lia. reflexivity. Qed.
Lemma byte_of_spec bits : 0 <= byte_of bits < 256 /\ forall j, 0 <= j < 8 -> Z.testbit (byte_of bits) (7 - j) = nth (Z.to_nat j) bits false.
Proof. unfold byte_of. change (zrange 0 8) with [0; 1; 2; 3; 4; 5; 6; 7]. cbn [map fold_right]. change (Z.to_nat 0) with 0%nat. change (Z.to_nat 1) with 1%nat. change (Z.to_nat 2) with 2%nat. change (Z.to_nat 3) with 3%nat. change (Z.to_nat 4) with 4%nat. change (Z.to_nat 5) with 5%nat. change (Z.to_nat 6) with 6%nat. change (Z.to_nat 7) with 7%nat.
  assert (J : forall j, 0 <= j < 8 -> j = 0 \/ j = 1 \/ j = 2 \/ j = 3 \/ j = 4 \/ j = 5 \/ j = 6 \/ j = 7) by lia.
  destruct (nth 0 bits false) eqn:E0, (nth 1 bits false) eqn:E1, (nth 2 bits false) eqn:E2, (nth 3 bits false) eqn:E3, (nth 4 bits false) eqn:E4, (nth 5 bits false) eqn:E5, (nth 6 bits false) eqn:E6, (nth 7 bits false) eqn:E7;
  (split; [vm_compute; split; congruence|intros j Hj; destruct (J j Hj) as [ -> | [ -> | [ -> | [ -> | [ -> | [ -> | [ -> | -> ] ] ] ] ] ] ]; symmetry; assumption]). Qed.
Lemma tobytes_holds bits : holds_bits (tobytes bits) bits.
Proof. unfold tobytes. assert (G : forall fuel bits, (length bits <= fuel)%nat -> holds_bits (tobytes_loop fuel bits) bits); [|apply G; lia]. clear bits.
  induction fuel as [|fuel IH]; intros bits L.
  - destruct bits; [|cbn in L; lia]. cbn [tobytes_loop]. split; [constructor|]. split; [reflexivity|]. cbn [length]. lia.
  - destruct bits as [|b bits]; [cbn [tobytes_loop]; split; [constructor|]; split; [reflexivity|]; cbn [length]; lia|].
    cbn [tobytes_loop]. set (l := b :: bits) in *. assert (Ls : length (skipn 8 l) = (length l - 8)%nat) by apply skipn_length. assert (L1 : (1 <= length l)%nat) by (unfold l; cbn [length]; lia).
    destruct (IH (skipn 8 l) ltac:(lia)) as (F & Ln & B). destruct (byte_of_spec (firstn 8 l)) as [R T]. split; [constructor; [exact R|exact F]|]. split.
    + cbn [length]. rewrite Ln, Ls. destruct (Nat.leb_spec (length l) 8).
      * replace (length l - 8)%nat with 0%nat by lia. change ((0 + 7) / 8)%nat with 0%nat. apply (Nat.div_unique _ 8 1 (length l - 1)); lia.
      * replace (length l + 7)%nat with (length l - 8 + 7 + 1 * 8)%nat by lia. rewrite Nat.div_add by lia. lia.
    + intros n Hn. cbn [length] in Hn. unfold stream_bit in *. destruct (Z.ltb_spec n 8) as [Hs|Hs].
      * rewrite Z.div_small, Z.mod_small by lia. cbn [Z.to_nat nth]. rewrite T by lia. assert (E : nth (Z.to_nat n) (firstn 8 l ++ skipn 8 l) false = nth (Z.to_nat n) (firstn 8 l) false). { destruct (Nat.ltb_spec (Z.to_nat n) (length (firstn 8 l))) as [Hl|Hl]; [apply app_nth1, Hl|]. rewrite (nth_overflow (firstn 8 l)) by lia. rewrite firstn_length in Hl. rewrite nth_overflow; [reflexivity|]. rewrite firstn_skipn. lia. }
        rewrite firstn_skipn in E. congruence.
      * specialize (B (n - 8) ltac:(lia)). assert (Ed : (n - 8) / 8 = n / 8 - 1) by (replace (n - 8) with (n + (-1) * 8) by lia; rewrite Z.div_add by lia; lia). assert (Em : (n - 8) mod 8 = n mod 8) by (replace (n - 8) with (n + (-1) * 8) by lia; apply Z.mod_add; lia). rewrite Ed, Em in B.
        assert (1 <= n / 8) by (apply Z.div_le_lower_bound; lia). replace (Z.to_nat (n / 8)) with (S (Z.to_nat (n / 8 - 1))) by lia. cbn [nth]. rewrite B. assert (E : nth (Z.to_nat n) (firstn 8 l ++ skipn 8 l) false = nth (Z.to_nat n - length (firstn 8 l)) (skipn 8 l) false) by (apply app_nth2; rewrite firstn_length; lia). rewrite firstn_skipn in E. rewrite E. rewrite firstn_length.
        destruct (Nat.leb_spec 8 (length l)); [replace (Nat.min 8 (length l)) with 8%nat by lia; f_equal; lia|]. rewrite !nth_overflow by lia. reflexivity. Qed.
Lemma holds_unique bytes bits bits' : holds_bits bytes bits -> holds_bits bytes bits' -> forall n, 0 <= n < 8 * Z.of_nat (length bytes) -> nth (Z.to_nat n) bits false = nth (Z.to_nat n) bits' false.
Proof. intros (_ & _ & A) (_ & _ & B) n H. rewrite <- A, <- B by exact H. reflexivity. Qed.

(** ** C60 *)
Definition in_range (shift : Z) (e : entry) (n : Z) : bool := (start e <=? n) && (n <? start e + shift).
Definition removed (shift : Z) (es : list entry) (n : Z) : bool := existsb (fun e => in_range shift e n) es.
(** Entries name a bit of a word, and ranges do not overlap. *)
Definition proper (e : entry) : Prop := 0 <= e_word e /\ 0 <= e_bit e < 32.
Definition disjoint (shift : Z) (es : list entry) : Prop := NoDup es /\ forall e e', In e es -> In e' es -> e <> e' -> shift <= Z.abs (start e - start e').
Lemma filter_true {A} (f : A -> bool) l : (forall x, In x l -> f x = true) -> filter f l = l.
Proof. induction l as [|a l IH]; intros H; [reflexivity|]. cbn [filter]. rewrite (H a ltac:(left; reflexivity)). rewrite IH by (intros x I; apply H; right; exact I). reflexivity. Qed.
Lemma del_step {B} (W : Z -> B) N k s rm : 0 <= N -> 0 <= k -> 0 <= s -> (forall n, n < k + s -> rm n = false) ->
  let bits := map W (filter (fun n => negb (rm n)) (zrange 0 N)) in
  let l := slice_index (Z.of_nat (length bits)) k in let h := Z.max l (slice_index (Z.of_nat (length bits)) (k + s)) in
  firstn (Z.to_nat l) bits ++ skipn (Z.to_nat h) bits = map W (filter (fun n => negb (((k <=? n) && (n <? k + s)) || rm n)) (zrange 0 N)).
Proof. intros HN Hk Hs Hrm. cbn zeta. set (a := Z.min k N). set (b := Z.min (k + s) N).
  assert (Ez : zrange 0 N = zrange 0 a ++ zrange a b ++ zrange b N) by (rewrite <- (zrange_app a b N) by lia; rewrite <- (zrange_app 0 a N) by lia; reflexivity).
  assert (Eb : map W (filter (fun n => negb (rm n)) (zrange 0 N)) = map W (zrange 0 a) ++ map W (zrange a b) ++ map W (filter (fun n => negb (rm n)) (zrange b N))).
  { rewrite Ez, !filter_app, !map_app. rewrite (filter_true _ (zrange 0 a)), (filter_true _ (zrange a b)); [reflexivity| |]; intros n I; apply in_zrange in I; rewrite Hrm by lia; reflexivity. }
  assert (Et : map W (filter (fun n => negb (((k <=? n) && (n <? k + s)) || rm n)) (zrange 0 N)) = map W (zrange 0 a) ++ map W (filter (fun n => negb (rm n)) (zrange b N))).
  { rewrite Ez, !filter_app, !map_app. rewrite (filter_true _ (zrange 0 a)), (filter_false _ (zrange a b)).
    - cbn [map app]. f_equal. f_equal. apply filter_ext_in. intros n I. apply in_zrange in I. replace ((k <=? n) && (n <? k + s)) with false by lia. reflexivity.
    - intros n I. apply in_zrange in I. replace ((k <=? n) && (n <? k + s)) with true by lia. reflexivity.
    - intros n I. apply in_zrange in I. rewrite Hrm by lia. replace ((k <=? n) && (n <? k + s)) with false by lia. reflexivity. }
  rewrite Et, Eb. set (A := map W (zrange 0 a)). set (B0 := map W (zrange a b)). set (C := map W (filter (fun n => negb (rm n)) (zrange b N))).
  assert (LA : length A = Z.to_nat a) by (unfold A; rewrite map_length, zrange_length; f_equal; lia). assert (LB : length B0 = Z.to_nat (b - a)) by (unfold B0; rewrite map_length, zrange_length; reflexivity).
  assert (LC : b < k + s -> length C = 0%nat). { intros H. unfold C. rewrite zrange_nil by lia. reflexivity. }
  assert (Ln : Z.of_nat (length (A ++ B0 ++ C)) = b + Z.of_nat (length C)) by (rewrite !app_length, LA, LB; lia). rewrite Ln. unfold slice_index. replace (k <? 0) with false by lia. replace (k + s <? 0) with false by lia.
  assert (El : Z.min k (b + Z.of_nat (length C)) = a). { destruct (Z_lt_dec b (k + s)) as [H|H]; [specialize (LC H)|]; lia. }
  assert (Eh : Z.min (k + s) (b + Z.of_nat (length C)) = b). { destruct (Z_lt_dec b (k + s)) as [H|H]; [specialize (LC H)|]; lia. }
  rewrite El, Eh. replace (Z.max a b) with b by lia. f_equal.
  - rewrite <- LA. rewrite firstn_app, firstn_all. replace (length A - length A)%nat with 0%nat by lia. cbn [firstn]. apply app_nil_r.
  - rewrite app_assoc. replace (Z.to_nat b) with (length (A ++ B0)) by (rewrite app_length, LA, LB; lia). rewrite skipn_app, skipn_all. replace (length (A ++ B0) - length (A ++ B0))%nat with 0%nat by lia. reflexivity. Qed.
Lemma sorted_starts remove : (forall e, In e remove -> proper e) -> StronglySorted (fun e e' => start e <= start e') (sorted_entries remove).
Proof. intros H. assert (S := sort_by_sorted (fun e => e_word e * 10000 + e_bit e) remove). fold (sorted_entries remove) in S. assert (P : forall e, In e (sorted_entries remove) -> proper e) by (intros e I; apply H; eapply Permutation_in; [apply sort_by_perm|exact I]).
  induction S as [|e l S IH F]; [constructor|]. constructor; [apply IH; intros x I; apply P; right; exact I|]. apply Forall_forall. intros x I. rewrite Forall_forall in F. specialize (F x I). cbn beta in F. pose proof (P e ltac:(left; reflexivity)) as [? ?]. pose proof (P x ltac:(right; exact I)) as [? ?]. unfold start. nia. Qed.
Lemma fold_deletes data shift es : 0 <= shift -> (forall e, In e es -> proper e) -> disjoint shift es -> StronglySorted (fun e e' => start e <= start e') es ->
  fold_left (fun a e => del_slice a (start e) (start e + shift)) (rev es) (map (wire_bit data) (zrange 0 (32 * Z.of_nat (length data)))) = kept_bits (removed shift es) data.
Proof. intros Hs P D S. rewrite <- fold_left_rev_right, rev_involutive. induction S as [|e es S IH F]; cbn [fold_right].
  - unfold kept_bits, removed. cbn [existsb negb]. rewrite filter_true by reflexivity. reflexivity.
  - destruct D as [Nd Sp]. apply NoDup_cons_iff in Nd. destruct Nd as [N1 N2]. rewrite IH; [|intros x I; apply P; right; exact I|split; [exact N2|intros x y Ix Iy; apply Sp; right; assumption]].
    unfold del_slice, kept_bits. pose proof (P e ltac:(left; reflexivity)) as [Pw Pb]. rewrite (del_step (wire_bit data)); [reflexivity|lia|unfold start; lia|exact Hs|].
    intros n Hn. unfold removed. destruct (existsb _ es) eqn:X; [|reflexivity]. exfalso. apply existsb_exists in X. destruct X as (e' & I' & X). unfold in_range in X. rewrite Forall_forall in F. specialize (F e' I'). cbn beta in F. specialize (Sp e e' ltac:(left; reflexivity) ltac:(right; exact I') ltac:(intros ->; contradiction)). lia. Qed.
(** Which entries are honoured: all but one with the least position. *)
Definition all_but_first (remove rest : list entry) : Prop :=
  remove = [] /\ rest = [] \/ exists first, Permutation remove (first :: rest) /\ forall e, In e rest -> start first <= start e.
Lemma tail_perm remove rest : (forall e, In e remove -> proper e) -> (forall e e', In e remove -> In e' remove -> e <> e' -> start e <> start e') -> all_but_first remove rest -> Permutation (tl (sorted_entries remove)) rest.
Proof. intros P Sp [[-> ->]|(first & Pm & Lo)]; [constructor|]. pose proof (sorted_starts remove P) as S. pose proof (sort_by_perm (fun e => e_word e * 10000 + e_bit e) remove) as Ps. fold (sorted_entries remove) in Ps. destruct (sorted_entries remove) as [|f t].
  - apply Permutation_nil in Ps. subst. apply Permutation_length in Pm. discriminate.
  - cbn [tl]. inversion S as [|? ? _ F]; subst. rewrite Forall_forall in F. assert (If : In f remove) by (eapply Permutation_in; [exact Ps|left; reflexivity]). assert (I1 : In first remove) by (eapply Permutation_in; [apply Permutation_sym, Pm|left; reflexivity]).
    assert (f = first) as ->.
    { apply (Permutation_in _ Pm) in If as If'. destruct If' as [<-|Ir]; [reflexivity|]. pose proof (Permutation_in _ (Permutation_sym Ps) I1) as [->|It]; [reflexivity|]. specialize (Lo f Ir). specialize (F first It). cbn beta in F. destruct (Z.eq_dec (start f) (start first)) as [e|n]; [|lia].
      assert (Dec : f = first \/ f <> first) by (destruct f as [a1 b1 l1], first as [a2 b2 l2]; destruct (Z.eq_dec a1 a2), (Z.eq_dec b1 b2), (Bool.bool_dec l1 l2); try (right; congruence); left; congruence). destruct Dec as [Dec|Dec]; [exact Dec|]. exfalso. exact (Sp f first If I1 Dec e). }
    eapply Permutation_cons_inv. rewrite Ps. exact Pm. Qed.
Lemma removed_perm shift a b n : Permutation a b -> removed shift a n = removed shift b n.
Proof. unfold removed. induction 1; cbn [existsb]; try congruence. destruct (in_range shift x n), (in_range shift y n); reflexivity. Qed.
Theorem C60_drops_listed_partial : forall shift remove data, 1 <= shift -> Forall word32 data -> (forall e, In e remove -> proper e) -> disjoint shift remove ->
  exists bytes, shift_compress shift remove data = Ok bytes /\
    forall rest, all_but_first remove rest -> holds_bits bytes (kept_bits (removed shift rest) data).
Proof. intros shift remove data Hs F P D. unfold shift_compress. rewrite (pack_words_ok data F). cbn [bind]. eexists. split; [reflexivity|]. intros rest A.
  pose proof (sort_by_perm (fun e => e_word e * 10000 + e_bit e) remove) as Ps. fold (sorted_entries remove) in Ps.
  assert (Sub : forall e, In e (tl (sorted_entries remove)) -> In e remove). { intros e I. eapply Permutation_in; [exact Ps|]. destruct (sorted_entries remove); [destruct I|right; exact I]. }
  rewrite data_wire. unfold visited_entries. rewrite fold_deletes.
  - replace (kept_bits (removed shift rest) data) with (kept_bits (removed shift (tl (sorted_entries remove))) data); [apply tobytes_holds|]. unfold kept_bits. f_equal. apply filter_ext. intros n. f_equal. apply removed_perm. apply tail_perm; [exact P| |exact A]. intros e e' I I' N. destruct D as [_ D]. specialize (D e e' I I' N). lia.
  - lia.
  - intros e I. apply P, Sub, I.
  - destruct D as [Nd D]. split; [|intros e e' I I'; apply D; apply Sub; assumption]. assert (Nd' : NoDup (sorted_entries remove)) by (eapply Permutation_NoDup; [apply Permutation_sym, Ps|exact Nd]). destruct (sorted_entries remove); [constructor|]. apply NoDup_cons_iff in Nd'. apply Nd'.
  - pose proof (sorted_starts remove P) as S. destruct (sorted_entries remove); [constructor|]. inversion S; assumption. Qed.
Print Assumptions C60_drops_listed_partial.
(** The listed bits are not all dropped: the first entry is skipped ... *)
Theorem C60_drops_listed_refuted : exists shift remove data bytes, 1 <= shift /\ Forall word32 data /\ (forall e, In e remove -> proper e) /\ disjoint shift remove /\
  shift_compress shift remove data = Ok bytes /\ ~ holds_bits bytes (kept_bits (removed shift remove) data).
Proof. exists 2, [Entry 0 4 false], [2 ^ 32 - 1], [255; 255; 255; 255]. split; [lia|]. split; [repeat constructor; unfold word32; lia|]. split; [intros e [<-|[]]; unfold proper; cbn; lia|]. split; [split; [repeat constructor; intros []|intros e e' [<-|[]] [<-|[]]; congruence]|]. split; [vm_compute; reflexivity|].
  intros (_ & _ & H). specialize (H 31 ltac:(cbn; lia)). vm_compute in H. discriminate. Qed.
Print Assumptions C60_drops_listed_refuted.
(** ... and overlapping ranges drop bits that are in no range. *)
Theorem C60_overlap_refuted : exists shift remove data bytes, 1 <= shift /\ Forall word32 data /\ (forall e, In e remove -> proper e) /\
  shift_compress shift remove data = Ok bytes /\ (exists first rest, all_but_first remove rest /\ In first rest /\ ~ holds_bits bytes (kept_bits (removed shift rest) data)).
Proof. exists 2, [Entry 0 0 false; Entry 0 8 false; Entry 0 9 false], [0x0000F000], [0; 0; 0; 0]. split; [lia|]. split; [repeat constructor; unfold word32; lia|]. split; [intros e [<-|[<-|[<-|[]]]]; unfold proper; cbn; lia|]. split; [vm_compute; reflexivity|].
  exists (Entry 0 8 false), [Entry 0 8 false; Entry 0 9 false]. split; [right; exists (Entry 0 0 false); split; [reflexivity|intros e [<-|[<-|[]]]; vm_compute; congruence]|]. split; [left; reflexivity|].
  intros (_ & _ & H). specialize (H 8 ltac:(cbn; lia)). vm_compute in H. discriminate. Qed.
Print Assumptions C60_overlap_refuted.
Example C60_example : shift_compress 2 [Entry 0 30 false; Entry 0 4 false; Entry 0 8 false] [0x0000A5C3] = Ok [0xC3; 0x94; 0; 0].
Proof. vm_compute. reflexivity. Qed.

(** ** C61 *)
Lemma list_set_length {A} (l : list A) i v : length (list_set l i v) = length l.
Proof. revert i. induction l as [|a l IH]; intros [|i]; cbn [list_set length]; auto. Qed.
Lemma list_set_nth {A} (l : list A) i v d n : (i < length l)%nat -> nth n (list_set l i v) d = if (n =? i)%nat then v else nth n l d.
Proof. revert i n. induction l as [|a l IH]; intros i n H; [cbn in H; lia|]. destruct i as [|i], n as [|n]; cbn [list_set nth]; try reflexivity. rewrite IH by (cbn in H; lia). reflexivity. Qed.
Lemma clear_ok a k : 0 <= k < Z.of_nat (length a) -> clear_bit a k = Ok (list_set a (Z.to_nat k) false).
Proof. intros H. unfold clear_bit. replace (k <? 0) with false by lia. replace ((0 <=? k) && (k <? Z.of_nat (length a))) with true by lia. reflexivity. Qed.
Lemma list_set_twice {A} (l : list A) i v : list_set (list_set l i v) i v = list_set l i v.
Proof. revert i. induction l as [|a l IH]; intros [|i]; cbn [list_set]; auto. f_equal. apply IH. Qed.
Lemma clear_times k l : forall a, 0 <= k < Z.of_nat (length a) -> foldM (fun a (_ : Z) => clear_bit a k) l a = Ok (match l with [] => a | _ => list_set a (Z.to_nat k) false end).
Proof. induction l as [|x l IH]; intros a H; cbn [foldM]; [reflexivity|]. rewrite clear_ok by exact H. cbn [bind]. rewrite IH by (rewrite list_set_length; exact H). destruct l; [reflexivity|]. rewrite list_set_twice. reflexivity. Qed.
Definition clears (shift : Z) (es : list entry) (n : Z) : bool := (0 <? shift) && existsb (fun e => negb (e_long e) && (start e =? n)) es.
Lemma swap_fold shift es : (forall e, In e es -> 0 <= start e) -> forall a, exists a', 
  foldM (fun a e => if e_long e then Ok a else if start e >=? Z.of_nat (length a) then Ok a
    else foldM (fun a (_ : Z) => clear_bit a (start e)) (zrange (Z.of_nat (length a) - shift) (Z.of_nat (length a))) a) es a = Ok a' /\
  length a' = length a /\ forall n, 0 <= n -> nth (Z.to_nat n) a' false = nth (Z.to_nat n) a false && negb (clears shift es n).
Proof. unfold clears. induction es as [|e es IH]; intros P a; cbn [foldM].
  - exists a. split; [reflexivity|]. split; [reflexivity|]. intros n _. cbn [existsb]. rewrite andb_false_r. cbn [negb]. rewrite andb_true_r. reflexivity.
  - pose proof (P e ltac:(left; reflexivity)) as Pe. specialize (IH (fun e I => P e (or_intror I))). cbn [existsb].
    assert (Step : exists a1, (if e_long e then Ok a else if start e >=? Z.of_nat (length a) then Ok a else foldM (fun a (_ : Z) => clear_bit a (start e)) (zrange (Z.of_nat (length a) - shift) (Z.of_nat (length a))) a) = Ok a1 /\ length a1 = length a /\
      forall n, 0 <= n -> nth (Z.to_nat n) a1 false = nth (Z.to_nat n) a false && negb ((0 <? shift) && (negb (e_long e) && (start e =? n)))).
    { destruct (e_long e); [exists a; split; [reflexivity|]; split; [reflexivity|]; intros n _; cbn [negb andb]; rewrite andb_false_r; cbn [negb]; rewrite andb_true_r; reflexivity|]. cbn [negb andb].
      destruct (start e >=? Z.of_nat (length a)) eqn:C.
      - exists a. split; [reflexivity|]. split; [reflexivity|]. intros n Hn. destruct (Z.eqb_spec (start e) n) as [<-|N]; [rewrite nth_overflow by lia; reflexivity|]. rewrite andb_false_r. cbn [negb]. rewrite andb_true_r. reflexivity.
      - rewrite clear_times by lia. destruct (zrange _ _) as [|z zs] eqn:Z0.
        + exists a. split; [reflexivity|]. split; [reflexivity|]. intros n Hn. assert (Hs : shift <= 0) by (apply (f_equal (@length Z)) in Z0; rewrite zrange_length in Z0; cbn [length] in Z0; lia). replace (0 <? shift) with false by lia. cbn [andb negb]. rewrite andb_true_r. reflexivity.
        + eexists. split; [reflexivity|]. split; [apply list_set_length|]. intros n Hn. assert (Hs : 0 < shift) by (apply (f_equal (@length Z)) in Z0; rewrite zrange_length in Z0; cbn [length] in Z0; lia). replace (0 <? shift) with true by lia. cbn [andb]. rewrite list_set_nth by lia. destruct (Z.eqb_spec (start e) n) as [<-|N].
          * rewrite Nat.eqb_refl. cbn [negb]. rewrite andb_false_r. reflexivity.
          * replace (Z.to_nat n =? Z.to_nat (start e))%nat with false by lia. cbn [negb]. rewrite andb_true_r. reflexivity. }
    destruct Step as (a1 & E1 & L1 & N1). rewrite E1. cbn [bind]. destruct (IH a1) as (a' & E' & L' & N'). exists a'. split; [exact E'|]. split; [congruence|]. intros n Hn. rewrite N', N1 by exact Hn. destruct (0 <? shift), (negb (e_long e) && (start e =? n)), (existsb (fun e0 => negb (e_long e0) && (start e0 =? n)) es), (nth (Z.to_nat n) a false); reflexivity. Qed.
Theorem C61_clears_listed_partial : forall shift remove data, Forall word32 data -> (forall e, In e remove -> proper e) ->
  (forall e e', In e remove -> In e' remove -> e <> e' -> start e <> start e') ->
  exists bytes, swap_compress shift remove data = Ok bytes /\ length bytes = (4 * length data)%nat /\ Forall (fun b => 0 <= b < 256) bytes /\
    forall rest n, all_but_first remove rest -> 0 <= n < 32 * Z.of_nat (length data) ->
      (* one bit is cleared per honoured entry, nothing else changes *)
      (stream_bit bytes n <> wire_bit data n <-> wire_bit data n = true /\ 0 < shift /\ exists e, In e rest /\ e_long e = false /\ start e = n) /\
      (stream_bit bytes n = true -> wire_bit data n = true).
Proof. intros shift remove data F P Sp. unfold swap_compress. rewrite (pack_words_ok data F). cbn [bind]. rewrite data_wire.
  pose proof (sort_by_perm (fun e => e_word e * 10000 + e_bit e) remove) as Ps. fold (sorted_entries remove) in Ps.
  assert (Sub : forall e, In e (visited_entries remove) -> In e remove). { intros e I. unfold visited_entries in I. apply in_rev in I. eapply Permutation_in; [exact Ps|]. destruct (sorted_entries remove); [destruct I|right; exact I]. }
  destruct (swap_fold shift (visited_entries remove)) with (a := map (wire_bit data) (zrange 0 (32 * Z.of_nat (length data)))) as (a' & E & L & N). { intros e I. destruct (P e (Sub e I)). unfold start. lia. }
  rewrite E. cbn [bind]. eexists. split; [reflexivity|]. destruct (tobytes_holds a') as (By & Ln & B). rewrite L, map_length, zrange_length in Ln.
  assert (Ln4 : length (tobytes a') = (4 * length data)%nat). { rewrite Ln. symmetry. apply (Nat.div_unique _ 8 _ 7); lia. }
  split; [exact Ln4|]. split; [exact By|]. intros rest n A Hn. specialize (B n ltac:(lia)). rewrite B, N by lia.
  assert (W : nth (Z.to_nat n) (map (wire_bit data) (zrange 0 (32 * Z.of_nat (length data)))) false = wire_bit data n). { rewrite (nth_indep _ false (wire_bit data 0)) by (rewrite map_length, zrange_length; lia). rewrite map_nth, nth_zrange by lia. f_equal. lia. }
  rewrite W. assert (C : clears shift (visited_entries remove) n = true <-> 0 < shift /\ exists e, In e rest /\ e_long e = false /\ start e = n).
  { pose proof (tail_perm remove rest P Sp A) as Tp. unfold clears. rewrite andb_true_iff, existsb_exists. unfold visited_entries. split.
    - intros (Hs & e & I & He). split; [lia|]. exists e. split; [|split; [destruct (e_long e); [discriminate|reflexivity]|lia]]. eapply Permutation_in; [exact Tp|]. apply in_rev, I.
    - intros (Hs & e & I & Hl & He). split; [lia|]. exists e. split; [|rewrite Hl; cbn [negb andb]; lia]. rewrite <- in_rev. eapply Permutation_in; [apply Permutation_sym, Tp|exact I]. }
  destruct (wire_bit data n), (clears shift (visited_entries remove) n); cbn [andb negb]; (split; [split|]); try congruence; try (intros; split; [reflexivity|apply C; reflexivity]); try (intros (? & H1); apply C in H1; discriminate); intros; discriminate || tauto. Qed.
Print Assumptions C61_clears_listed_partial.
(** The range of an entry is not cleared, only its first bit; and the first entry
    and the entries with more than two components are skipped. *)
Theorem C61_clears_listed_refuted : exists shift remove data bytes, 1 <= shift /\ Forall word32 data /\ (forall e, In e remove -> proper e) /\ disjoint shift remove /\
  swap_compress shift remove data = Ok bytes /\
  (exists n, 0 <= n < 32 * Z.of_nat (length data) /\ removed shift remove n = true /\ stream_bit bytes n = true) /\
  (* even for an entry that is neither first nor long *)
  (exists rest e n, all_but_first remove rest /\ In e rest /\ e_long e = false /\ in_range shift e n = true /\ 0 <= n < 32 * Z.of_nat (length data) /\ stream_bit bytes n = true).
Proof. exists 2, [Entry 0 0 false; Entry 0 4 false], [2 ^ 32 - 1], [247; 255; 255; 255]. split; [lia|]. split; [repeat constructor; unfold word32; lia|]. split; [intros e [<-|[<-|[]]]; unfold proper; cbn; lia|]. split; [split; [repeat constructor; cbn; intuition congruence|intros e e' [<-|[<-|[]]] [<-|[<-|[]]]; unfold start; cbn; try congruence; lia]|]. split; [vm_compute; reflexivity|]. split.
  - exists 0. split; [cbn; lia|]. split; reflexivity.
  - exists [Entry 0 4 false], (Entry 0 4 false), 5. split; [right; exists (Entry 0 0 false); split; [reflexivity|intros e [<-|[]]; vm_compute; congruence]|]. split; [left; reflexivity|]. split; [reflexivity|]. split; [reflexivity|]. split; [cbn; lia|reflexivity]. Qed.
Print Assumptions C61_clears_listed_refuted.
Example C61_example : swap_compress 2 [Entry 0 30 false; Entry 0 4 false; Entry 0 8 false; Entry 0 16 true] [0xFFFFFFFF] = Ok [255; 127; 255; 253].
Proof. vm_compute. reflexivity. Qed.

(** ** C77: changing registers *)
Lemma index_loop_stops fuel sorted instruction part index q freq : (1 <= fuel)%nat -> index = Z.of_nat (length sorted) - 1 -> 
  index_loop fuel modify_register sorted instruction part index (q, freq, false) = if (index >? part) then (if (0 <=? index) then Err AttributeError else Err IndexError) else Ok (q, freq, false).
Proof. intros F Ei. destruct fuel as [|fuel]; [lia|]. cbn [index_loop snd negb andb]. destruct (index >? part); [|reflexivity]. destruct (Z.ltb_spec index 0) as [H|H].
  - cbn [bind]. replace (0 <=? index) with false by lia. reflexivity.
  - replace (0 <=? index) with true by lia. unfold nth_r. destruct (nth_error sorted (Z.to_nat index)) eqn:E; [|apply nth_error_None in E; lia]. cbn [bind next_loop modify_register]. reflexivity. Qed.
(** Whatever the fuel, it raises as soon as some register is smaller than the number
    of different registers minus one; otherwise nothing is changed. *)
Theorem C77_changes_registers_partial : forall fuel program registers fields, (1 <= fuel)%nat -> (forall p, In p program -> registers p = Ok (fields p)) -> (forall p r, In p program -> In r (fields p) -> 0 <= r) ->
  let different := Z.of_nat (length (nodup Z.eq_dec (flat_map fields program))) in
  (change_registers fuel program registers = Err AttributeError <-> exists r, In r (flat_map fields program) /\ r < different - 1) /\
  ((forall r, In r (flat_map fields program) -> different - 1 <= r) -> exists freq with_part, freq_info program registers = Ok (freq, with_part) /\ change_registers fuel program registers = Ok (0, freq)).
Proof. intros fuel program registers fields Hf H Nn different. destruct (C59_exact program registers fields H) as (freq & with_ & E & Tf & Tw). unfold change_registers. rewrite E. cbn [bind]. unfold change_parts.
  set (key := fun k => match dget freq k with Some n => n | None => 0 end). set (sorted := sort_by key (dkeys freq)).
  assert (Kf : forall k, In k (dkeys freq) <-> In k (flat_map fields program)). { intros k. rewrite dget_some_in, Tf. unfold occurrences. cbn zeta. rewrite (count_occ_In Z.eq_dec). destruct (Z.of_nat (count_occ Z.eq_dec (flat_map fields program) k) =? 0) eqn:Z0; split; intros X; [destruct X; discriminate|lia|lia|eauto]. }
  assert (Nk : NoDup (dkeys freq)). { clear - E. unfold freq_info in E. assert (G : forall l st st', foldM (fun st p => let* fields := registers p in Ok (fold_left (freq_item p) (counter fields) st)) l st = Ok st' -> NoDup (dkeys (fst st)) -> NoDup (dkeys (fst st'))).
    { induction l as [|p l IH]; intros st st' X N; cbn [foldM] in X; [congruence|]. destruct (registers p) as [fs|]; [|discriminate]. cbn [bind] in X. apply IH in X; [exact X|]. clear - N. revert st N. induction (counter fs) as [|[k r] c IH]; intros st N; cbn [fold_left]; [exact N|]. apply IH. destruct st as [f w]. cbn [freq_item fst] in *. apply dset_nodup. destruct (dget f k); [exact N|apply dset_nodup, N]. }
    apply (G _ _ _ E). constructor. }
  assert (Ln : Z.of_nat (length sorted) = different). { unfold different, sorted. rewrite (Permutation_length (sort_by_perm _ _)). f_equal. apply Permutation_length. apply NoDup_Permutation; [exact Nk|apply NoDup_nodup|]. intros k. rewrite Kf. symmetry. apply nodup_In. }
  assert (Ks : forall k, In k sorted <-> In k (flat_map fields program)). { intros k. rewrite <- Kf. unfold sorted. split; intros I; (eapply Permutation_in; [|exact I]); [apply sort_by_perm|apply Permutation_sym, sort_by_perm]. }
  assert (Wp : forall k, In k sorted -> exists p ps, dget with_ k = Some (p :: ps)). { intros k I. apply Ks in I. apply in_flat_map in I. destruct I as (p & Ip & Ik). rewrite Tw. assert (X : In p (filter (fun p => contains k (fields p)) program)) by (apply filter_In; split; [exact Ip|]; unfold contains; apply existsb_exists; exists k; split; [exact Ik|apply Z.eqb_refl]). destruct (filter _ program) as [|a l]; [destruct X|]. cbn [firsts]. eauto. }
  set (inner := fun (st : Z * dict Z) part => let* ps := dget_r with_ part in foldM (fun (st : Z * dict Z) instruction => let* (st', _) := index_loop fuel modify_register sorted instruction part (Z.of_nat (length sorted) - 1) (fst st, snd st, false) in Ok st') ps st).
  assert (St : forall st part, In part sorted -> inner st part = if part <? different - 1 then Err AttributeError else Ok st).
  { intros st part I. unfold inner. destruct (Wp part I) as (p & ps & G). unfold dget_r. rewrite G. cbn [bind]. assert (Pn : 0 <= part) by (apply Ks in I; apply in_flat_map in I; destruct I as (p0 & I0 & I1); eapply Nn; eassumption). rewrite Ln. destruct (Z.ltb_spec part (different - 1)) as [Hp|Hp].
    - cbn [foldM]. rewrite index_loop_stops by lia. replace (different - 1 >? part) with true by lia. replace (0 <=? different - 1) with true by lia. reflexivity.
    - clear G. set (l := p :: ps). clearbody l. clear I. revert st. induction l as [|x l IH]; intros st; cbn [foldM]; [reflexivity|]. rewrite index_loop_stops by lia. replace (different - 1 >? part) with false by lia. cbn [bind]. rewrite <- surjective_pairing. apply IH. }
  assert (All : forall l st, incl l sorted -> foldM inner l st = if existsb (fun r => r <? different - 1) l then Err AttributeError else Ok st).
  { induction l as [|x l IH]; intros st I; cbn [foldM existsb]; [reflexivity|]. rewrite St by (apply I; left; reflexivity). destruct (x <? different - 1); cbn [orb bind]; [reflexivity|]. apply IH. intros y Hy. apply I. right. exact Hy. }
  rewrite (All sorted (0, freq) (incl_refl _)). split.
  - destruct (existsb _ sorted) eqn:X.
    + apply existsb_exists in X. destruct X as (r & I & Hr). split; [|reflexivity]. intros _. exists r. split; [apply Ks, I|lia].
    + split; [discriminate|]. intros (r & I & Hr). exfalso. assert (Y : existsb (fun r => r <? different - 1) sorted = true) by (apply existsb_exists; exists r; split; [apply Ks, I|lia]). congruence.
  - intros Hr. exists freq, with_. split; [reflexivity|]. destruct (existsb _ sorted) eqn:X; [|reflexivity]. exfalso. apply existsb_exists in X. destruct X as (r & I & Hl). specialize (Hr r (proj1 (Ks r) I)). lia. Qed.
Print Assumptions C77_changes_registers_partial.
Theorem C77_changes_registers_refuted : exists program registers, (forall p, In p program -> exists l, registers p = Ok l) /\ forall fuel, (1 <= fuel)%nat -> change_registers fuel program registers = Err AttributeError.
Proof. exists [0; 1], (fun p => Ok (if p =? 0 then [3; 0] else [1])). split; [eauto|]. intros [|fuel] H; [lia|]. reflexivity. Qed.
Print Assumptions C77_changes_registers_refuted.
Example C77_example : let fields := fun p : Z => if p =? 0 then [3; 0] else [1] in Z.of_nat (length (nodup Z.eq_dec (flat_map fields [0; 1]))) = 3 /\ In 1 (flat_map fields [0; 1]) /\ change_registers 5 [0] (fun _ => Ok [7; 7]) = Ok (0, [(7, 2)]).
Proof. split; [reflexivity|]. split; [right; right; left; reflexivity|]. reflexivity. Qed.
