(** C94, C95: the mock quality function and the address orders. *)
From Verif Require Import ListLemmas MiscModel.
From Coq Require Import ZifyBool ZifyNat Permutation Lia.
Ltac Zify.zify_post_hook ::= Z.div_mod_to_equations.

(** ** C94 *)
Lemma mock_calls_nth q : 0 <= q < 3 -> forall n i, (i < n)%nat -> nth_error (mock_calls n q) i = Some ((Z.of_nat i + q) mod 3 =? 2).
Proof. intros Hq n. revert q Hq. induction n as [|n IH]; intros q Hq i Hi; [lia|]. cbn [mock_calls]. unfold mock_run. destruct (Z.eqb_spec q 2) as [->|D]; (destruct i as [|i]; cbn [nth_error]).
  - reflexivity.
  - rewrite IH by lia. f_equal. lia.
  - f_equal. lia.
  - rewrite IH by lia. f_equal. replace (Z.of_nat i + (q + 1)) with (Z.of_nat (S i) + q) by lia. reflexivity. Qed.
Theorem C94_every_third n i : (i < n)%nat -> nth_error (mock_calls n 0) i = Some (Z.of_nat (S i) mod 3 =? 0).
Proof. intros H. rewrite mock_calls_nth by lia. f_equal. lia. Qed.
Print Assumptions C94_every_third.
Lemma mock_count n : forall q, 0 <= q < 3 -> Z.of_nat (length (filter (fun b => b) (mock_calls n q))) = (Z.of_nat n + q) / 3.
Proof. induction n as [|n IH]; intros q Hq; [cbn [mock_calls filter length]; lia|]. cbn [mock_calls]. unfold mock_run. destruct (Z.eqb_spec q 2) as [->|D]; cbn [filter length].
  - pose proof (IH 0 ltac:(lia)). lia.
  - rewrite IH by lia. f_equal. lia. Qed.
Theorem C94_share n : Z.of_nat (length (filter (fun b => b) (mock_calls n 0))) = Z.of_nat n / 3.
Proof. rewrite mock_count by lia. f_equal. lia. Qed.
Print Assumptions C94_share.
Example C94_example : mock_calls 7 0 = [false; false; true; false; false; true; false].
Proof. reflexivity. Qed.

(** ** C95 *)
Definition in_range (x y z : Z) : Prop := 0 <= x < 64 /\ 0 <= y < 32 /\ 0 <= z < 4.
Theorem C95_one_to_one x y z x' y' z' : in_range x y z -> in_range x' y' z' ->
  (hi_in_hi x y z = hi_in_hi x' y' z' -> (x, y, z) = (x', y', z')) /\ (low_in_hi x y z = low_in_hi x' y' z' -> (x, y, z) = (x', y', z')).
Proof. unfold in_range, hi_in_hi, low_in_hi. intros H K. split; intros E; repeat f_equal; lia. Qed.
Print Assumptions C95_one_to_one.
Theorem C95_onto a : 0 <= a < 8192 -> exists x y z, in_range x y z /\ hi_in_hi x y z = a.
Proof. intros H. exists (a / 128), (a / 4 mod 32), (a mod 4). unfold in_range, hi_in_hi. split; [lia|lia]. Qed.
Print Assumptions C95_onto.
Lemma nodup_join {A} (l m : list A) : NoDup l -> NoDup m -> (forall x, In x l -> In x m -> False) -> NoDup (l ++ m).
Proof. induction l as [|a l IH]; intros N M H; [exact M|]. inversion N as [|? ? N1 N2]; subst. cbn [app]. constructor; [rewrite in_app_iff; intros [K|K]; [exact (N1 K)|apply (H a); [left; reflexivity|exact K]]|]. apply IH; [exact N2|exact M|]. intros x Hx. apply H. right. exact Hx. Qed.
Lemma nodup_flat {A B} (f : A -> list B) l : NoDup l -> (forall a, In a l -> NoDup (f a)) -> (forall a b x, In a l -> In b l -> In x (f a) -> In x (f b) -> a = b) -> NoDup (flat_map f l).
Proof. induction l as [|a l IH]; intros N H K; [constructor|]. inversion N as [|? ? N1 N2]; subst. cbn [flat_map]. apply nodup_join.
  - apply H. left. reflexivity.
  - apply IH; [exact N2|intros; apply H; right; assumption|intros b c x Hb Hc; apply K; right; assumption].
  - intros x Hx Hy. apply in_flat_map in Hy. destruct Hy as (b & Hb & Hy). assert (a = b) as -> by (apply (K a b x); [left; reflexivity|right; exact Hb|exact Hx|exact Hy]). exact (N1 Hb). Qed.
(** Whatever the order of the loops, no address is printed twice. *)
Lemma loops_nodup (g : Z -> Z -> Z -> Z) n m k : (forall a b c a' b' c', 0 <= a < n -> 0 <= b < m -> 0 <= c < k -> 0 <= a' < n -> 0 <= b' < m -> 0 <= c' < k -> g a b c = g a' b' c' -> a = a' /\ b = b' /\ c = c') ->
  NoDup (flat_map (fun a => flat_map (fun b => map (fun c => g a b c) (zrange 0 k)) (zrange 0 m)) (zrange 0 n)).
Proof. intros H. apply nodup_flat; [apply zrange_nodup| |].
  - intros a Ha. apply in_zrange in Ha. apply nodup_flat; [apply zrange_nodup| |].
    + intros b Hb. apply in_zrange in Hb. apply nodup_map_in; [apply zrange_nodup|]. intros c d Hc Hd E. apply in_zrange in Hc, Hd. apply (H a b c a b d); assumption.
    + intros b b' x Hb Hb' Hx Hx'. apply in_zrange in Hb, Hb'. apply in_map_iff in Hx, Hx'. destruct Hx as (c & <- & Hc), Hx' as (d & E & Hd). apply in_zrange in Hc, Hd. symmetry. apply (H a b' d a b c); assumption.
  - intros a a' x Ha Ha' Hx Hx'. apply in_zrange in Ha, Ha'. apply in_flat_map in Hx, Hx'. destruct Hx as (b & Hb & Hx), Hx' as (b' & Hb' & Hx'). apply in_zrange in Hb, Hb'. apply in_map_iff in Hx, Hx'. destruct Hx as (c & <- & Hc), Hx' as (d & E & Hd). apply in_zrange in Hc, Hd. symmetry. apply (H a' b' d a b c); assumption. Qed.
Lemma loops_in (g : Z -> Z -> Z -> Z) n m k v : In v (flat_map (fun a => flat_map (fun b => map (fun c => g a b c) (zrange 0 k)) (zrange 0 m)) (zrange 0 n)) <-> exists a b c, 0 <= a < n /\ 0 <= b < m /\ 0 <= c < k /\ g a b c = v.
Proof. rewrite in_flat_map. split.
  - intros (a & Ha & H). apply in_flat_map in H. destruct H as (b & Hb & H). apply in_map_iff in H. destruct H as (c & E & Hc). apply in_zrange in Ha, Hb, Hc. exists a, b, c. auto.
  - intros (a & b & c & Ha & Hb & Hc & E). exists a. rewrite in_zrange, in_flat_map. split; [exact Ha|]. exists b. rewrite in_zrange, in_map_iff. split; [exact Hb|]. exists c. rewrite in_zrange. auto. Qed.
Theorem C95_orders : hi_first_start_loosing_low_bit = zrange 0 8192 /\ Permutation hi_first_start_loosing_hi_bit (zrange 0 8192) /\ NoDup lo_first_loose_high_bit.
Proof. split; [vm_compute; reflexivity|]. split.
  - unfold hi_first_start_loosing_hi_bit. apply NoDup_Permutation; [apply (loops_nodup (fun z y x => hi_in_hi x y z)); unfold hi_in_hi; intros; lia|apply zrange_nodup|]. intros v. rewrite (loops_in (fun z y x => hi_in_hi x y z)), in_zrange. split.
    + intros (z & y & x & Hz & Hy & Hx & <-). unfold hi_in_hi. lia.
    + intros H. destruct (C95_onto v H) as (x & y & z & (Hx & Hy & Hz) & E). exists z, y, x. auto.
  - unfold lo_first_loose_high_bit. apply (loops_nodup (fun z y x => low_in_hi x y z)). unfold low_in_hi. intros. lia. Qed.
Print Assumptions C95_orders.
Example C95_example : hi_in_hi 63 31 3 = 8191 /\ low_in_hi 1 2 3 = 2179 /\ firstn 3 hi_first_start_loosing_hi_bit = [0; 128; 256] /\ length lo_first_loose_high_bit = 8192%nat.
Proof. split; [reflexivity|]. split; [reflexivity|]. split; vm_compute; reflexivity. Qed.
