(** C133: which packets neighbouring cells of the Blaum matrix belong to. *)
From Verif Require Import ListLemmas BlaumProofs.
From Verif Require Export BlaumModel InterleaveSpec.
From Coq Require Import ZifyBool ZifyNat.

(** ** Specification *)
(** [q] is the quotient [a / b] rounded to the nearest integer, to the even one of two. *)
Definition rounded (q a b : Z) : Prop := 2 * Z.abs (q * b - a) <= b /\ (2 * Z.abs (q * b - a) = b -> Z.Even q).
(** [b] is the integer nearest to the square root of [n]. *)
Definition nearest_root (b n : Z) : Prop := 1 <= b /\ (2 * b - 1) * (2 * b - 1) < 4 * n < (2 * b + 1) * (2 * b + 1).
(** The cell in column [x] of row [y] belongs to packet [p]. *)
Definition cell (M : list (list Z)) (x y p : Z) : Prop := 0 <= x /\ 0 <= y /\ exists row, nth_error M (Z.to_nat y) = Some row /\ nth_error row (Z.to_nat x) = Some p.

Lemma ok_inj {A} (x y : A) : Ok x = Ok y -> x = y.
Proof. congruence. Qed.
Lemma round_div_even a b q : 0 < b -> round_div a b = Ok q -> rounded q a b.
Proof.
  intros Hb E. unfold round_div in E. assert (X : (b =? 0) = false) by lia. rewrite X in E. clear X. assert (X : (b <? 0) = false) by (clear E; lia). rewrite X in E. clear X. cbv beta iota zeta in E. apply ok_inj in E. pose proof (Z.div_mod a b ltac:(lia)) as D. pose proof (Z.mod_pos_bound a b Hb) as B.
  remember (a / b) as d in *. remember (a mod b) as r in *. clear Heqd Heqr. subst a. unfold rounded.
  destruct (2 * r <? b) eqn:E1; [subst d; replace (q * b - (b * q + r)) with (- r) by ring; split; [lia|intros X; exfalso; lia]|].
  destruct (2 * r >? b) eqn:E2; [subst q; replace ((d + 1) * b - (b * d + r)) with (b - r) by ring; split; [lia|intros X; exfalso; lia]|].
  destruct (Z.even d) eqn:E3; subst q.
  - replace (d * b - (b * d + r)) with (- r) by ring. split; [lia|intros _; now apply Z.even_spec].
  - replace ((d + 1) * b - (b * d + r)) with (b - r) by ring. split; [lia|intros _]. apply Z.even_spec. rewrite Z.even_add, E3. reflexivity.
Qed.
Lemma round_sqrt_near n b : 1 <= n -> round_sqrt n = Ok b -> nearest_root b n.
Proof.
  intros Hn E. unfold round_sqrt in E. replace (n <? 0) with false in E by lia. apply ok_inj in E. pose proof (Z.sqrt_spec n ltac:(lia)) as [S1 S2]. pose proof (Z.sqrt_nonneg n) as S0. remember (Z.sqrt n) as s in *. clear Heqs.
  unfold nearest_root. destruct (n - s * s >? s) eqn:C; subst b; nia.
Qed.
Lemma mapM_at {A B} (f : A -> result B) : forall l l', mapM f l = Ok l' -> forall i b, nth_error l' i = Some b -> exists a, nth_error l i = Some a /\ f a = Ok b.
Proof.
  induction l as [|a l IH]; intros l' E i b Hi; cbn [mapM] in E; [injection E as <-; destruct i; discriminate|]. destruct (f a) as [c|] eqn:Ea; [cbn [bind] in E|discriminate]. destruct (mapM f l) as [r|]; [cbn [bind] in E|discriminate]. injection E as <-.
  destruct i as [|i]; [injection Hi as <-; exists a; auto|]. exact (IH r eq_refl i b Hi).
Qed.
Lemma zrange_at n : forall k i v, nth_error (zrange k n) i = Some v -> v = k + Z.of_nat i.
Proof.
  intros k i v E. pose proof (nth_error_nth _ _ 0 E) as N. assert (L : (i < length (zrange k n))%nat) by (apply nth_error_Some; congruence).
  rewrite <- N. unfold zrange in *. rewrite map_length, seq_length in L. rewrite nth_indep with (d' := (fun j => k + Z.of_nat j) 0%nat) by (rewrite map_length, seq_length; exact L). rewrite (map_nth (fun j => k + Z.of_nat j)). rewrite seq_nth by exact L. lia.
Qed.

(** ** C133 *)
(** The packet of every cell. *)
Theorem C133_cells : forall message_size packet_size dw dh M, 0 < packet_size -> packet_size < 2 * message_size -> blaum message_size packet_size dw dh = Ok M ->
  exists m b, rounded m message_size packet_size /\ 1 <= m /\ nearest_root b (2 * m - 1) /\ forall x y p, cell M x y p -> p = Z.abs (x - y * b) mod m.
Proof.
  intros ms ps dw dh M Hp Hl E. unfold blaum in E. match type of E with bind ?r _ = _ => destruct r as [[w h]|]; [cbn [bind] in E|discriminate] end.
  destruct (round_div ms ps) as [m|] eqn:Em; [cbn [bind] in E|discriminate]. apply round_div_even in Em; [|exact Hp]. assert (1 <= m) by (destruct Em as [A _]; nia).
  destruct (round_sqrt (2 * m - 1)) as [b|] eqn:Eb; [cbn [bind] in E|discriminate]. apply round_sqrt_near in Eb; [|lia]. exists m, b. split; [exact Em|]. split; [assumption|]. split; [exact Eb|].
  intros x y p (X & Y & row & R1 & R2). destruct (mapM_at _ _ _ E _ _ R1) as (y' & Ny & Er). destruct (mapM_at _ _ _ Er _ _ R2) as (x' & Nx & Ex). apply zrange_at in Ny, Nx. assert (y' = y) as -> by lia. assert (x' = x) as -> by lia.
  replace (m =? 0) with false in Ex by lia. injection Ex as <-. rewrite <- Z.rem_abs_l by lia. rewrite Z.rem_mod_nonneg by lia. reflexivity.
Qed.
Print Assumptions C133_cells.
(** Cells next to each other in a row belong to different packets. *)
Theorem C133_rows : forall message_size packet_size dw dh M x y p q, 0 < packet_size -> 3 * packet_size < 2 * message_size -> blaum message_size packet_size dw dh = Ok M ->
  cell M x y p -> cell M (x + 1) y q -> p <> q.
Proof.
  intros ms ps dw dh M x y p q Hp Hl E C1 C2. destruct (C133_cells ms ps dw dh M Hp ltac:(lia) E) as (m & b & [R _] & Hm & _ & H). apply H in C1, C2. assert (2 <= m) by nia. remember (x - y * b) as t in *. replace (x + 1 - y * b) with (t + 1) in C2 by lia. clear Heqt H.
  intros Q. assert (D : (Z.abs t - Z.abs (t + 1)) mod m = 0) by (rewrite Zminus_mod, <- C1, <- C2, Q, Z.sub_diag; apply Z.mod_0_l; lia).
  apply Z.mod_divide in D; [|lia]. destruct D as (k & D). assert (K : k * m = 1 \/ k * m = -1) by lia. assert (k <= -1 \/ k = 0 \/ 1 <= k) as [A|[A|A]] by lia; nia.
Qed.
Print Assumptions C133_rows.
(** The claim is false for columns. *)
Theorem C133_columns_refuted : exists message_size packet_size dw dh M x y p, 0 < packet_size /\ 5 * packet_size < 2 * message_size /\ blaum message_size packet_size dw dh = Ok M /\ cell M x y p /\ cell M x (y + 1) p.
Proof. exists 9, 3, 3, (-1). eexists. exists 1, 0, 1. split; [lia|]. split; [lia|]. split; [vm_compute; reflexivity|]. split; (split; [lia|]; split; [lia|]; eexists; split; vm_compute; reflexivity). Qed.
Print Assumptions C133_columns_refuted.
(** It is so in every matrix, exactly half way between the places where a row and the next
    one begin with packet 0. *)
Theorem C133_columns_same : forall message_size packet_size dw dh M, 0 < packet_size -> packet_size < 2 * message_size -> blaum message_size packet_size dw dh = Ok M ->
  exists m b, rounded m message_size packet_size /\ nearest_root b (2 * m - 1) /\ forall x y p q, 2 * x = (2 * y + 1) * b -> cell M x y p -> cell M x (y + 1) q -> p = q.
Proof.
  intros ms ps dw dh M Hp Hl E. destruct (C133_cells ms ps dw dh M Hp Hl E) as (m & b & R & _ & N & H). exists m, b. split; [exact R|]. split; [exact N|]. intros x y p q X C1 C2. rewrite (H _ _ _ C1), (H _ _ _ C2). f_equal. lia.
Qed.
Print Assumptions C133_columns_same.
(** What holds of columns: cells on the same side of those places belong to different
    packets. *)
Theorem C133_columns_partial : forall message_size packet_size dw dh M, 0 < packet_size -> 5 * packet_size < 2 * message_size -> blaum message_size packet_size dw dh = Ok M ->
  exists m b, rounded m message_size packet_size /\ nearest_root b (2 * m - 1) /\ forall x y p q, (y + 1) * b <= x \/ x <= y * b -> cell M x y p -> cell M x (y + 1) q -> p <> q.
Proof.
  intros ms ps dw dh M Hp Hl E. destruct (C133_cells ms ps dw dh M Hp ltac:(lia) E) as (m & b & R & Hm & N & H). exists m, b. split; [exact R|]. split; [exact N|]. intros x y p q X C1 C2 Q. apply H in C1, C2. assert (3 <= m) by (destruct R; nia).
  assert (B : 1 <= b < m) by (destruct N as [N1 [N2 _]]; split; [lia|]; assert (~ m <= b) by nia; lia).
  replace (x - (y + 1) * b) with (x - y * b - b) in C2 by ring. assert (X' : b <= x - y * b \/ x - y * b <= 0) by lia. remember (x - y * b) as t in *. clear Heqt H.
  assert (D : (Z.abs t - Z.abs (t - b)) mod m = 0) by (rewrite Zminus_mod, <- C1, <- C2, Q, Z.sub_diag; apply Z.mod_0_l; lia).
  apply Z.mod_divide in D; [|lia]. destruct D as (k & D). destruct X' as [X'|X']; [assert (b = k * m) by lia|assert (- b = k * m) by lia]; (assert (k <= -1 \/ k = 0 \/ 1 <= k) as [A|[A|A]] by lia; nia).
Qed.
Print Assumptions C133_columns_partial.
(** 20 words in packets of 4, four in a row: 5 packets, shifted by 3 in each row. *)
Example C133_example : exists M, blaum 20 4 4 (-1) = Ok M /\ 5 * 4 < 2 * 20 /\ cell M 1 1 2 /\ cell M 2 1 1 /\ cell M 1 2 0 /\ (nearest_root 3 9 /\ rounded 5 20 4) /\
  exists M, blaum 9 3 3 (-1) = Ok M /\ 2 * 1 = (2 * 0 + 1) * 2 /\ nearest_root 2 5.
Proof.
  eexists. split; [vm_compute; reflexivity|]. split; [lia|]. do 3 (split; [split; [lia|]; split; [lia|]; eexists; split; vm_compute; reflexivity|]). split; [split; [unfold nearest_root; lia|unfold rounded; lia]|].
  eexists. split; [vm_compute; reflexivity|]. split; [lia|unfold nearest_root; lia].
Qed.
