From Verif Require Import ListLemmas BitsModel BitsSpec BitsProofs QueueProofs FlipModel FlipSpec.
From Coq Require Import ZifyBool ZifyNat.

Definition flip_all (l : list Z) (i : Z) : list Z := l ++ map (fun x => Z.lxor x (bits_on i)) l.
Definition allflips (bits : list Z) (l : list Z) : list Z := fold_left flip_all bits l.

Lemma lxor_on_bit x i j : 0 <= i -> 0 <= j -> Z.testbit (Z.lxor x (bits_on i)) j = xorb (Z.testbit x j) (i =? j).
Proof. intros Hi Hj. rewrite Z.lxor_spec. unfold bits_on. rewrite Z.pow2_bits_eqb by lia. reflexivity. Qed.

Lemma lxor_on_invol x i : Z.lxor (Z.lxor x (bits_on i)) (bits_on i) = x.
Proof. rewrite Z.lxor_assoc, Z.lxor_nilpotent, Z.lxor_0_r. reflexivity. Qed.
Lemma lxor_on_inj i x y : Z.lxor x (bits_on i) = Z.lxor y (bits_on i) -> x = y.
Proof. intros H. rewrite <- (lxor_on_invol x i), H. apply lxor_on_invol. Qed.

Lemma zmem_in x l : zmem x l = true <-> In x l.
Proof. unfold zmem. rewrite existsb_exists. split.
  - intros (y & Hy & E). apply Z.eqb_eq in E. subst. exact Hy.
  - intros H. exists x. split; [exact H|apply Z.eqb_refl]. Qed.
Lemma zmem_false x l : zmem x l = false <-> ~ In x l.
Proof. rewrite <- zmem_in. destruct (zmem x l); split; congruence. Qed.

Lemma flip_all_length l i : length (flip_all l i) = (2 * length l)%nat.
Proof. unfold flip_all. rewrite app_length, map_length. lia. Qed.
Lemma allflips_length bits : forall l, length (allflips bits l) = (length l * 2 ^ length bits)%nat.
Proof. induction bits as [|b bits IH]; intros l; cbn [allflips fold_left length]; [cbn; lia|].
  change (fold_left flip_all bits (flip_all l b)) with (allflips bits (flip_all l b)).
  rewrite IH, flip_all_length. cbn [Nat.pow]. lia. Qed.

Lemma allflips_app a b l : allflips (a ++ b) l = allflips b (allflips a l).
Proof. apply fold_left_app. Qed.

Lemma same_outside_refl B e : same_outside B e e.
Proof. intros i _ _. reflexivity. Qed.

(** Membership: [x] is in the enumeration iff some start is equal to it outside the bits. *)
Lemma allflips_in bits : Forall (fun i => 0 <= i) bits -> forall l x,
  In x (allflips bits l) <-> exists e, In e l /\ same_outside (fun i => In i bits) e x.
Proof. induction bits as [|b bits IH]; intros F l x; cbn [allflips fold_left].
  - split.
    + intros H. exists x. split; [exact H|apply same_outside_refl].
    + intros (e & He & S). replace x with e; [exact He|]. apply Z.bits_inj'. intros i Hi. symmetry. apply S; [exact Hi|tauto].
  - inversion F as [|? ? Hb Hbits]; subst.
    change (fold_left flip_all bits (flip_all l b)) with (allflips bits (flip_all l b)). rewrite IH by assumption. split.
    + intros (e & He & S). unfold flip_all in He. apply in_app_or in He. destruct He as [He|He].
      * exists e. split; [exact He|]. intros i Hi Hn. apply S; [exact Hi|]. intros H; apply Hn; right; exact H.
      * apply in_map_iff in He. destruct He as (e0 & <- & He). exists e0. split; [exact He|].
        intros i Hi Hn. rewrite S; [|exact Hi|intros H; apply Hn; right; exact H].
        rewrite lxor_on_bit by assumption. replace (b =? i) with false; [apply xorb_false_r|].
        symmetry. apply Z.eqb_neq. intros ->. apply Hn. left; reflexivity.
    + intros (e & He & S). destruct (Bool.bool_dec (Z.testbit x b) (Z.testbit e b)) as [E|E].
      * exists e. split; [apply in_or_app; left; exact He|]. intros i Hi Hn. destruct (Z.eq_dec i b) as [->|Ne]; [exact E|].
        apply S; [exact Hi|]. intros [X|X]; [congruence|contradiction].
      * exists (Z.lxor e (bits_on b)). split; [apply in_or_app; right; apply in_map_iff; exists e; auto|].
        intros i Hi Hn. rewrite lxor_on_bit by assumption. destruct (Z.eqb_spec b i) as [->|Ne].
        -- destruct (Z.testbit x i), (Z.testbit e i); cbn; congruence.
        -- rewrite xorb_false_r. apply S; [exact Hi|]. intros [X|X]; [congruence|contradiction]. Qed.

(** All elements agree on bit [i]. *)
Definition agree_on (i : Z) (l : list Z) : Prop := forall x y, In x l -> In y l -> Z.testbit x i = Z.testbit y i.

Lemma allflips_nodup bits : Forall (fun i => 0 <= i) bits -> NoDup bits -> forall l, NoDup l ->
  Forall (fun i => agree_on i l) bits -> NoDup (allflips bits l).
Proof. induction bits as [|b bits IH]; intros F N l Nl A; cbn [allflips fold_left]; [exact Nl|].
  inversion F as [|? ? Hb Hbits]; subst. inversion N as [|? ? Nb Nbits]; subst. inversion A as [|? ? Ab Abits]; subst.
  apply IH; try assumption.
  - unfold flip_all. apply NoDup_app_intro; [exact Nl| |].
    + apply nodup_map_in; [exact Nl|]. intros x y _ _ E. eapply lxor_on_inj; exact E.
    + intros x Hx Hy. apply in_map_iff in Hy. destruct Hy as (y & E & Hy).
      pose proof (Ab x y Hx Hy) as T. rewrite <- E in T. rewrite lxor_on_bit, Z.eqb_refl in T by assumption.
      destruct (Z.testbit y b); discriminate.
  - rewrite Forall_forall in *. intros i Hi. specialize (Abits i Hi). specialize (Hbits i Hi).
    assert (Ne : b <> i) by (intros ->; contradiction).
    assert (G : forall z, In z (flip_all l b) -> exists z0, In z0 l /\ Z.testbit z i = Z.testbit z0 i).
    { intros z Hz. apply in_app_or in Hz. destruct Hz as [Hz|Hz]; [exists z; auto|].
      apply in_map_iff in Hz. destruct Hz as (z0 & <- & Hz). exists z0. split; [exact Hz|].
      rewrite lxor_on_bit by assumption. replace (b =? i) with false by lia. apply xorb_false_r. }
    intros x y Hx Hy. destruct (G x Hx) as (x0 & Hx0 & ->). destruct (G y Hy) as (y0 & Hy0 & ->). apply Abits; assumption. Qed.

Lemma agree_single i e : agree_on i [e].
Proof. intros x y [<-|[]] [<-|[]]. reflexivity. Qed.

Lemma allflips_hd bits : forall l e, hd_error l = Some e -> hd_error (allflips bits l) = Some e.
Proof. induction bits as [|b bits IH]; intros l e H; cbn [allflips fold_left]; [exact H|].
  apply IH. destruct l; [discriminate|]. exact H. Qed.

(** ** corrupt_all_bits *)
Lemma flip_new_all mask l : (forall x y, In x l -> In y l -> Z.lxor x mask <> y) ->
  (forall x y, Z.lxor x mask = Z.lxor y mask -> x = y) -> NoDup l ->
  flip_new mask l l = l ++ map (fun x => Z.lxor x mask) l.
Proof. intros Hne Hinj N. unfold flip_new.
  assert (G : forall suf pre, l = pre ++ suf ->
    fold_left (fun res x => let masked := Z.lxor x mask in if zmem masked res then res else res ++ [masked]) suf
       (l ++ map (fun x => Z.lxor x mask) pre) = l ++ map (fun x => Z.lxor x mask) (pre ++ suf)).
  { induction suf as [|x suf IH]; intros pre E; cbn [fold_left]; [rewrite app_nil_r; reflexivity|].
    assert (zmem (Z.lxor x mask) (l ++ map (fun x => Z.lxor x mask) pre) = false) as ->.
    { apply zmem_false. intros H. apply in_app_or in H. destruct H as [H|H].
      - refine (Hne x _ _ H eq_refl). rewrite E. apply in_or_app. right; left; reflexivity.
      - apply in_map_iff in H. destruct H as (y & Ey & Hy). apply Hinj in Ey. subst y.
        rewrite E in N. apply NoDup_remove_2 in N. apply N. apply in_or_app. left; exact Hy. }
    rewrite <- app_assoc. specialize (IH (pre ++ [x])). rewrite map_app in IH. cbn [map] in IH.
    rewrite IH by (rewrite <- app_assoc; exact E). rewrite <- app_assoc. reflexivity. }
  specialize (G l [] eq_refl). cbn [map app] in G. rewrite app_nil_r in G. exact G. Qed.

Lemma corrupt_all_bits_flips lo e : 0 <= lo -> forall m,
  corrupt_all_bits lo (lo + Z.of_nat m) e = Ok (allflips (zrange lo (lo + Z.of_nat m)) [e]).
Proof. intros Hlo. induction m as [|m IH].
  - unfold corrupt_all_bits. rewrite zrange_nil by lia. reflexivity.
  - unfold corrupt_all_bits in *. replace (lo + Z.of_nat (S m)) with (lo + Z.of_nat m + 1) by lia.
    rewrite zrange_snoc by lia. rewrite foldM_app, IH. cbn [bind foldM]. unfold on_mask.
    replace (lo + Z.of_nat m <? 0) with false by lia. cbn [bind]. rewrite allflips_app. cbn [allflips fold_left].
    f_equal. set (bits := zrange lo (lo + Z.of_nat m)).
    assert (F : Forall (fun i => 0 <= i) bits) by (apply Forall_forall; intros i Hi; apply in_zrange in Hi; lia).
    unfold flip_all at 1. apply flip_new_all.
    + intros x y Hx Hy E. apply allflips_in in Hx, Hy; try assumption.
      destruct Hx as (x0 & [<-|[]] & Sx). destruct Hy as (y0 & [<-|[]] & Sy).
      assert (Nb : ~ In (lo + Z.of_nat m) bits) by (unfold bits; rewrite in_zrange; lia).
      specialize (Sx (lo + Z.of_nat m) ltac:(lia) Nb). specialize (Sy (lo + Z.of_nat m) ltac:(lia) Nb).
      rewrite <- E, lxor_on_bit, Z.eqb_refl, Sx in Sy by lia. destruct (Z.testbit e (lo + Z.of_nat m)); discriminate.
    + intros x y. apply lxor_on_inj.
    + apply allflips_nodup; [exact F|apply zrange_nodup|repeat constructor; auto|].
      apply Forall_forall. intros i _. apply agree_single. Qed.

Lemma nat_pow2 n : Z.of_nat (2 ^ n) = 2 ^ Z.of_nat n.
Proof. rewrite Nat2Z.inj_pow. reflexivity. Qed.

Lemma same_outside_ext (B B' : Z -> Prop) e x : (forall i, B i <-> B' i) -> same_outside B e x -> same_outside B' e x.
Proof. intros H S i Hi Hn. apply S; [exact Hi|]. rewrite H. exact Hn. Qed.

Lemma corrupt_all_bits_spec lo hi e : 0 <= lo <= hi ->
  exists l, corrupt_all_bits lo hi e = Ok l /\ hd_error l = Some e /\ NoDup l /\
    Z.of_nat (length l) = 2 ^ (hi - lo) /\
    (forall x, In x l <-> same_outside (fun i => lo <= i < hi) e x).
Proof. intros H. pose proof (corrupt_all_bits_flips lo e ltac:(lia) (Z.to_nat (hi - lo))) as E.
  replace (lo + Z.of_nat (Z.to_nat (hi - lo))) with hi in E by lia.
  assert (F : Forall (fun i => 0 <= i) (zrange lo hi)) by (apply Forall_forall; intros i Hi; apply in_zrange in Hi; lia).
  eexists. split; [exact E|]. split; [apply allflips_hd; reflexivity|]. split; [|split].
  - apply allflips_nodup; [exact F|apply zrange_nodup|repeat constructor; auto|]. apply Forall_forall. intros i _. apply agree_single.
  - rewrite allflips_length, zrange_length. cbn [length]. rewrite Nat.mul_1_l, nat_pow2. f_equal. lia.
  - intros x. rewrite allflips_in by exact F. split.
    + intros (e0 & [<-|[]] & S). eapply same_outside_ext; [|exact S]. intros i. apply in_zrange.
    + intros S. exists e. split; [left; reflexivity|]. eapply same_outside_ext; [|exact S]. intros i. symmetry. apply in_zrange. Qed.

(** ** corrupt_all_bits_tuples *)
Lemma list_set_app {A} (a b : list A) k v : (k < length b)%nat -> list_set (a ++ b) (length a + k) v = a ++ list_set b k v.
Proof. intros H. induction a as [|x a IH]; [reflexivity|]. cbn. rewrite IH. reflexivity. Qed.
Lemma list_set_length {A} (l : list A) k v : length (list_set l k v) = length l.
Proof. revert k; induction l as [|a l IH]; intros [|k]; cbn; auto. Qed.

Lemma skipn_step {A} m : forall (l : list A) z l', skipn m l = z :: l' -> skipn (S m) l = l'.
Proof. induction m as [|m IH]; intros l z l' H; destruct l as [|a l]; cbn [skipn] in *; try discriminate; [congruence|].
  apply IH in H. exact H. Qed.

Lemma flip_block_spec i l rest : (length l <= length rest)%nat ->
  flip_block i (l ++ rest, length l) =
  Ok (flip_all l i ++ skipn (length l) rest, (2 * length l)%nat).
Proof. intros Hr. unfold flip_block.
  assert (G : forall m, (m <= length l)%nat ->
    foldM (fun r k => let* x := nth_r r k in
      if Nat.ltb (length l + k) (length r) then Ok (list_set r (length l + k) (Z.lxor x (bits_on i))) else Err IndexError)
      (seq 0 m) (l ++ rest) = Ok (l ++ map (fun x => Z.lxor x (bits_on i)) (firstn m l) ++ skipn m rest)).
  { induction m as [|m IH]; intros Hm; [reflexivity|]. rewrite seq_S, foldM_app, IH by lia. cbn [bind foldM Nat.add].
    unfold nth_r. rewrite nth_error_app1 by lia. rewrite (nth_error_nth' l 0) by lia. cbn [bind].
    set (mid := map _ (firstn m l)). assert (Lm : length mid = m) by (unfold mid; rewrite map_length, firstn_length; lia).
    rewrite !app_length, Lm, skipn_length.
    destruct (Nat.ltb_spec (length l + m) (length l + (m + (length rest - m)))); [|lia].
    rewrite list_set_app by (rewrite app_length, skipn_length; lia).
    do 2 f_equal. rewrite <- Lm at 2. rewrite <- (Nat.add_0_r (length mid)). rewrite list_set_app by (rewrite skipn_length; lia).
    destruct (skipn m rest) as [|z rest'] eqn:Es.
    { assert (length (skipn m rest) = 0%nat) by (rewrite Es; reflexivity). rewrite skipn_length in *. lia. }
    cbn [list_set]. assert (E1 : skipn (S m) rest = rest').
    { exact (skipn_step m rest z rest' Es). }
    rewrite E1. assert (E2 : firstn (S m) l = firstn m l ++ [nth m l 0]).
    { clear -Hm. revert m Hm. induction l as [|a l IH]; intros m Hm; [cbn in Hm; lia|]. destruct m; [reflexivity|].
      change (firstn (S (S m)) (a :: l)) with (a :: firstn (S m) l). rewrite (IH m) by (cbn in Hm; lia). reflexivity. }
    rewrite E2, map_app. cbn [map]. rewrite <- app_assoc. reflexivity. }
  rewrite G by lia. cbn [bind]. rewrite firstn_all. unfold flip_all. rewrite <- app_assoc. reflexivity. Qed.

Lemma skipn_repeat {A} (a : A) n k : skipn k (repeat a n) = repeat a (n - k).
Proof. revert n; induction k as [|k IH]; intros n; [rewrite Nat.sub_0_r; reflexivity|]. destruct n; [reflexivity|]. apply IH. Qed.

Lemma foldM_nested {S A B} (f : S -> B -> result S) (g : A -> list B) l s :
  foldM (fun st a => foldM f (g a) st) l s = foldM f (flat_map g l) s.
Proof. revert s; induction l as [|a l IH]; intros s; [reflexivity|]. cbn [foldM flat_map]. rewrite foldM_app.
  destruct (foldM f (g a) s); cbn [bind]; [apply IH|reflexivity]. Qed.

Lemma flip_blocks e bits : forall l n, (length l * 2 ^ length bits <= n)%nat ->
  foldM (fun st i => flip_block i st) bits (l ++ repeat e (n - length l), length l) =
  Ok (allflips bits l ++ repeat e (n - length l * 2 ^ length bits), (length l * 2 ^ length bits)%nat).
Proof. induction bits as [|b bits IH]; intros l n H; cbn [foldM allflips fold_left length].
  - cbn [Nat.pow]. rewrite Nat.mul_1_r. reflexivity.
  - cbn [length Nat.pow] in H. assert (1 <= 2 ^ length bits)%nat by (clear; induction (length bits); cbn; lia).
    rewrite flip_block_spec by (rewrite repeat_length; nia). cbn [bind]. rewrite skipn_repeat.
    specialize (IH (flip_all l b) n). rewrite flip_all_length in IH.
    replace (n - length l - length l)%nat with (n - 2 * length l)%nat by lia.
    rewrite IH by lia. cbn [Nat.pow]. do 2 f_equal; [|lia]. f_equal. f_equal. lia. Qed.

Definition tuple_bits (tuples : list (Z * Z)) : list Z := flat_map (fun t => zrange (fst t) (snd t)) tuples.

Lemma tuple_bits_length tuples : Forall valid_range tuples -> Z.of_nat (length (tuple_bits tuples)) = total_width tuples.
Proof. induction 1 as [|t ts Ht Hts IH]; [reflexivity|].
  change (tuple_bits (t :: ts)) with (zrange (fst t) (snd t) ++ tuple_bits ts).
  change (total_width (t :: ts)) with ((snd t - fst t) + total_width ts).
  rewrite app_length, zrange_length. unfold valid_range in Ht. lia. Qed.

Lemma size_ok tuples : Forall valid_range tuples -> forall n,
  foldM (fun size t => let* _ := check_range (fst t) (snd t) in Ok (size + (snd t - fst t))) tuples n = Ok (n + total_width tuples).
Proof. induction 1 as [|t ts Ht Hts IH]; intros n; cbn [foldM total_width fold_right]; [f_equal; lia|].
  unfold valid_range in Ht. rewrite check_range_ok by lia. cbn [bind]. rewrite IH. f_equal. unfold total_width. lia. Qed.

Lemma size_err tuples : ~ Forall valid_range tuples -> forall n,
  foldM (fun size t => let* _ := check_range (fst t) (snd t) in Ok (size + (snd t - fst t))) tuples n = Err RuntimeError.
Proof. induction tuples as [|t ts IH]; intros H n; [exfalso; apply H; constructor|]. cbn [foldM].
  assert (D : valid_range t \/ ~ valid_range t) by (unfold valid_range; lia). destruct D as [D|D].
  - unfold valid_range in D. rewrite check_range_ok by lia. cbn [bind]. apply IH. intros F. apply H. constructor; assumption.
  - rewrite check_range_err; [reflexivity|]. unfold valid_range in D. lia. Qed.

Lemma tuples_flips tuples e : Forall valid_range tuples ->
  corrupt_all_bits_tuples tuples e = Ok (allflips (tuple_bits tuples) [e]).
Proof. intros F. unfold corrupt_all_bits_tuples. rewrite size_ok by exact F. cbn [bind].
  rewrite (foldM_nested (fun st i => flip_block i st)). fold (tuple_bits tuples).
  pose proof (tuple_bits_length tuples F) as L.
  replace (Z.to_nat (2 ^ (0 + total_width tuples))) with (2 ^ length (tuple_bits tuples))%nat
    by (rewrite <- L, Z.add_0_l, <- nat_pow2, Nat2Z.id; reflexivity).
  set (n := length (tuple_bits tuples)). assert (1 <= 2 ^ n)%nat by (clear; induction n; cbn; lia).
  pose proof (flip_blocks e (tuple_bits tuples) [e] (2 ^ n)%nat) as G. cbn [length] in G. fold n in G.
  replace ([e] ++ repeat e (2 ^ n - 1)) with (repeat e (2 ^ n)) in G.
  2:{ replace (2 ^ n)%nat with (S (2 ^ n - 1)) at 1 by lia. reflexivity. }
  rewrite G by lia. cbn [bind]. replace (2 ^ n - 1 * 2 ^ n)%nat with 0%nat by lia. rewrite app_nil_r. reflexivity. Qed.

Lemma tuple_bits_in tuples i : In i (tuple_bits tuples) <-> covered tuples i.
Proof. unfold tuple_bits, covered. rewrite in_flat_map. split; intros (t & H & I); exists t; (split; [exact H|]); apply in_zrange; exact I. Qed.

Lemma tuple_bits_nonneg tuples : Forall valid_range tuples -> Forall (fun i => 0 <= i) (tuple_bits tuples).
Proof. intros F. apply Forall_forall. intros i Hi. apply tuple_bits_in in Hi. destruct Hi as (t & Ht & H).
  rewrite Forall_forall in F. specialize (F t Ht). unfold valid_range in F. lia. Qed.

Lemma tuple_bits_nodup tuples : disjoint_ranges tuples -> NoDup (tuple_bits tuples).
Proof. unfold disjoint_ranges. induction 1 as [|t ts Ht Hts IH]; [constructor|]. cbn. apply NoDup_app_intro.
  - apply zrange_nodup.
  - exact IH.
  - intros i Hi Hj. apply in_zrange in Hi. apply tuple_bits_in in Hj. destruct Hj as (u & Hu & H).
    rewrite Forall_forall in Ht. apply (Ht u Hu i). auto. Qed.

Lemma tuples_spec tuples e :
  (Forall valid_range tuples -> exists l, corrupt_all_bits_tuples tuples e = Ok l /\ hd_error l = Some e /\
     Z.of_nat (length l) = 2 ^ total_width tuples /\
     (forall x, In x l <-> same_outside (covered tuples) e x) /\
     (disjoint_ranges tuples -> NoDup l)) /\
  (~ Forall valid_range tuples -> corrupt_all_bits_tuples tuples e = Err RuntimeError).
Proof. split.
  - intros F. eexists. split; [apply tuples_flips, F|]. split; [apply allflips_hd; reflexivity|].
    split; [rewrite allflips_length; cbn [length]; rewrite Nat.mul_1_l, nat_pow2, tuple_bits_length by exact F; reflexivity|].
    split.
    + intros x. rewrite allflips_in by (apply tuple_bits_nonneg, F). split.
      * intros (e0 & [<-|[]] & S). eapply same_outside_ext; [|exact S]. intros i. apply tuple_bits_in.
      * intros S. exists e. split; [left; reflexivity|]. eapply same_outside_ext; [|exact S]. intros i. symmetry. apply tuple_bits_in.
    + intros D. apply allflips_nodup; [apply tuple_bits_nonneg, F|apply tuple_bits_nodup, D|repeat constructor; auto|].
      apply Forall_forall. intros i _. apply agree_single.
  - intros H. unfold corrupt_all_bits_tuples. rewrite size_err by exact H. reflexivity. Qed.

(** Exact multiplicity: with overlapping ranges every element is repeated. *)
Lemma tuples_dup_overlap tuples e l : Forall valid_range tuples -> corrupt_all_bits_tuples tuples e = Ok l ->
  ~ NoDup (tuple_bits tuples) -> ~ NoDup l.
Proof. intros F E D N. rewrite tuples_flips in E by exact F. injection E as <-. apply D. clear D.
  (* distinct candidates: at most 2^|distinct bits| *)
  set (bits := tuple_bits tuples) in *. set (b' := nodup Z.eq_dec bits).
  assert (Fb : Forall (fun i => 0 <= i) bits) by (apply tuple_bits_nonneg, F).
  assert (Fb' : Forall (fun i => 0 <= i) b').
  { rewrite Forall_forall in *. intros i Hi. apply Fb. apply nodup_In in Hi. exact Hi. }
  assert (I : incl (allflips bits [e]) (allflips b' [e])).
  { intros x Hx. apply allflips_in in Hx; [|exact Fb]. destruct Hx as (e0 & He & S). apply allflips_in; [exact Fb'|].
    exists e0. split; [exact He|]. eapply same_outside_ext; [|exact S]. intros i. symmetry. apply nodup_In. }
  pose proof (NoDup_incl_length N I) as L. rewrite !allflips_length in L. cbn [length] in L. rewrite !Nat.mul_1_l in L.
  assert (Ln : (length bits <= length b')%nat).
  { destruct (le_lt_dec (length bits) (length b')) as [A|A]; [exact A|exfalso].
    assert (2 ^ length b' < 2 ^ length bits)%nat by (apply Nat.pow_lt_mono_r; lia). lia. }
  refine (NoDup_incl_NoDup (NoDup_nodup Z.eq_dec bits) Ln _).
  intros x Hx. apply nodup_In in Hx. exact Hx. Qed.
