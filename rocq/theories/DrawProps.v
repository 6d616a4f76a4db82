(** C177: the bar and the percentage that TextProgressBar draws. *)
From Verif Require Import ListLemmas DrawModel.
From Verif Require ProgressModel.
From Coq Require Import ZifyBool ZifyNat Lqa Sorted Qabs.
Open Scope Z_scope.

(** The whole number nearest to a number, the even one of two. *)
Definition nearest (z : Z) (q : Q) : Prop := (Qabs (q - inject_Z z) <= 1 # 2)%Q /\ ((Qabs (q - inject_Z z) == 1 # 2)%Q -> Z.even z = true).
(** Decimal digits and the number they stand for. *)
Definition digit (c : Z) : Prop := 48 <= c <= 57.
Definition number (t : text) : Z := fold_left (fun a c => 10 * a + (c - 48)) t 0.
(** A number with [d] digits after the point, nearest to [q]. *)
Definition percent_text (d : nat) (q : Q) (t : text) : Prop := exists whole fraction,
  t = whole ++ (if (0 <? d)%nat then 46 :: fraction else []) /\ whole <> [] /\ (tl whole <> [] -> hd 0 whole <> 48) /\ Forall digit whole /\ Forall digit fraction /\ length fraction = d /\
  nearest (number (whole ++ fraction)) (q * inject_Z (10 ^ Z.of_nat d)).
(** A line with [filled] of the cells filled. *)
Definition bar_line (o : options) (filled : Z) (percents t : text) : Prop :=
  0 <= filled <= o_length o /\
  t = [13] ++ o_prefix o ++ [32; 124] ++ repeat 9608 (Z.to_nat filled) ++ repeat 45 (Z.to_nat (o_length o - filled)) ++ [124; 32] ++ percents ++ [37; 32] ++ o_suffix o.
(** The line drawn when [k] steps were done. *)
Definition line_after (o : options) (row : Z * Z * text) : Prop := let '(k, filled, t) := row in
  nearest filled (inject_Z (o_length o) * (inject_Z (k + 1) / inject_Z (o_total o))) /\
  exists percents, percent_text (o_decimals o) (100 * (inject_Z k / inject_Z (o_total o))) percents /\ bar_line o filled percents t.
Definition before (a b : Z * Z * text) : Prop := let '(k, filled, _) := a in let '(k', filled', _) := b in k < k' /\ filled <= filled'.

Lemma round_nearest q : nearest (round_even q) q.
Proof. unfold nearest, round_even. pose proof (Qfloor_le q) as L. pose proof (Qlt_floor q) as U. set (f := Qfloor q) in *. rewrite inject_Z_plus in U. change (inject_Z 1) with 1%Q in U.
  destruct (Qcompare_spec (q - inject_Z f) (1 # 2)) as [E|E|E].
  - destruct (Z.even f) eqn:V.
    + rewrite Qabs_pos by lra. split; [lra|auto].
    + rewrite inject_Z_plus. change (inject_Z 1) with 1%Q. rewrite Qabs_neg by lra. split; [lra|]. intros _. rewrite Z.even_add, V. reflexivity.
  - rewrite Qabs_pos by lra. split; [lra|]. intros X. lra.
  - rewrite inject_Z_plus. change (inject_Z 1) with 1%Q. rewrite Qabs_neg by lra. split; [lra|]. intros X. lra. Qed.
Lemma nearest_bounds z q : nearest z q -> (inject_Z z - (1 # 2) <= q <= inject_Z z + (1 # 2))%Q.
Proof. intros [A _]. apply Qabs_Qle_condition in A. lra. Qed.
(** Rounding does not turn the order around. *)
Lemma nearest_mono a b x y : nearest a x -> nearest b y -> (x <= y)%Q -> a <= b.
Proof. intros A B L. destruct (Z_le_gt_dec a b) as [H|H]; [exact H|exfalso]. pose proof (nearest_bounds _ _ A). pose proof (nearest_bounds _ _ B).
  assert (G : (inject_Z b + 1 <= inject_Z a)%Q). { change 1%Q with (inject_Z 1). rewrite <- inject_Z_plus, <- Zle_Qle. lia. }
  assert (Ea : (x == inject_Z a - (1 # 2))%Q) by lra. assert (Eb : (y == inject_Z b + (1 # 2))%Q) by lra. assert (Eq : (inject_Z a == inject_Z b + 1)%Q) by lra.
  destruct A as [_ A], B as [_ B]. rewrite Qabs_neg in A by lra. rewrite Qabs_pos in B by lra. specialize (A ltac:(lra)). specialize (B ltac:(lra)).
  change 1%Q with (inject_Z 1) in Eq. rewrite <- inject_Z_plus in Eq. rewrite (proj1 (inject_Z_injective a (b + 1)) Eq), Z.even_add, B in A. discriminate. Qed.
Lemma nearest_whole z : nearest z (inject_Z z).
Proof. unfold nearest. assert (E : (inject_Z z - inject_Z z == 0)%Q) by ring. rewrite E. split; [discriminate|]. intros X. discriminate. Qed.

Lemma number_app a b : number (a ++ b) = fold_left (fun a c => 10 * a + (c - 48)) b (number a).
Proof. unfold number. apply fold_left_app. Qed.
Lemma digits_ok fuel : forall n, 0 <= n < Z.of_nat fuel -> Forall digit (digits_of fuel n) /\ number (digits_of fuel n) = n /\ digits_of fuel n <> [] /\ (tl (digits_of fuel n) <> [] -> hd 0 (digits_of fuel n) <> 48) /\ (10 <= n -> hd 0 (digits_of fuel n) <> 48).
Proof. induction fuel as [|fuel IH]; intros n H; [lia|]. cbn [digits_of]. destruct (Z.ltb_spec n 10) as [L|L].
  - split; [constructor; [unfold digit; lia|constructor]|]. split; [unfold number; cbn [fold_left]; lia|]. split; [discriminate|]. split; [intros X; exfalso; apply X; reflexivity|lia].
  - pose proof (Z.mod_pos_bound n 10 ltac:(lia)) as M. pose proof (Z.div_mod n 10 ltac:(lia)) as D. destruct (IH (n / 10)) as (A & B & C & E & G); [lia|].
    split; [apply Forall_app; split; [exact A|constructor; [unfold digit; lia|constructor]]|]. split; [rewrite number_app, B; cbn [fold_left]; lia|]. split; [destruct (digits_of fuel (n / 10)); discriminate|].
    assert (X : hd 0 (digits_of fuel (n / 10) ++ [48 + n mod 10]) <> 48).
    { destruct (digits_of fuel (n / 10)) as [|c [|c' l]] eqn:F; [congruence| |cbn [hd app]; apply E; discriminate]. cbn [hd app]. unfold number in B. cbn [fold_left] in B. lia. }
    split; intros _; exact X. Qed.
Lemma last_ok d : forall n, 0 <= n -> Forall digit (last_digits d n) /\ length (last_digits d n) = d /\ forall a, fold_left (fun a c => 10 * a + (c - 48)) (last_digits d n) a = a * 10 ^ Z.of_nat d + n mod 10 ^ Z.of_nat d.
Proof. induction d as [|d IH]; intros n H; cbn [last_digits]; [split; [constructor|]; split; [reflexivity|]; intros a; cbn [fold_left]; change (10 ^ Z.of_nat 0) with 1; rewrite Z.mod_1_r; lia|].
  pose proof (Z.mod_pos_bound n 10 ltac:(lia)) as M. destruct (IH (n / 10) ltac:(apply Z.div_pos; lia)) as (A & B & C). split; [apply Forall_app; split; [exact A|constructor; [unfold digit; lia|constructor]]|].
  split; [rewrite app_length, B; cbn [length]; lia|]. intros a. rewrite fold_left_app, C. cbn [fold_left]. rewrite Nat2Z.inj_succ, Z.pow_succ_r by lia. assert (P : 0 < 10 ^ Z.of_nat d) by (apply Z.pow_pos_nonneg; lia).
  rewrite (Z.rem_mul_r n 10 (10 ^ Z.of_nat d)) by lia. lia. Qed.

Lemma format_ok d q : (0 <= q)%Q -> percent_text d q (format_fixed d q).
Proof. intros Q0. unfold format_fixed. destruct (Qcompare_spec q 0) as [E|E|E]; [|lra|].
  all: set (n := round_even (q * inject_Z (10 ^ Z.of_nat d))); assert (P : 0 < 10 ^ Z.of_nat d) by (apply Z.pow_pos_nonneg; lia).
  all: assert (N0 : 0 <= n) by (apply (nearest_mono 0 n 0 (q * inject_Z (10 ^ Z.of_nat d))); [apply nearest_whole|apply round_nearest|]; assert (0 < inject_Z (10 ^ Z.of_nat d))%Q by (change 0%Q with (inject_Z 0); rewrite <- Zlt_Qlt; exact P); nra).
  all: assert (W0 : 0 <= n / 10 ^ Z.of_nat d) by (apply Z.div_pos; lia); destruct (digits_ok (S (Z.to_nat (n / 10 ^ Z.of_nat d))) (n / 10 ^ Z.of_nat d) ltac:(lia)) as (A & B & C & D & _); destruct (last_ok d n N0) as (A' & L & V).
  all: exists (digits_of (S (Z.to_nat (n / 10 ^ Z.of_nat d))) (n / 10 ^ Z.of_nat d)), (last_digits d n); split; [cbn [app]; f_equal; destruct d; reflexivity|].
  all: split; [exact C|]; split; [exact D|]; split; [exact A|]; split; [exact A'|]; split; [exact L|]; rewrite number_app, B, V; replace (n / 10 ^ Z.of_nat d * 10 ^ Z.of_nat d + n mod 10 ^ Z.of_nat d) with n by (pose proof (Z.div_mod n (10 ^ Z.of_nat d) ltac:(lia)); lia); apply round_nearest. Qed.

Lemma nearest_proper z q q' : (q == q')%Q -> nearest z q -> nearest z q'.
Proof. unfold nearest. intros E [A B]. assert (X : (Qabs (q' - inject_Z z) == Qabs (q - inject_Z z))%Q) by (rewrite E; reflexivity). rewrite X. split; assumption. Qed.
Lemma sorted_snoc {A} (R : A -> A -> Prop) l x : StronglySorted R l -> Forall (fun a => R a x) l -> StronglySorted R (l ++ [x]).
Proof. induction 1 as [|a l S IH F]; intros H; cbn [app]; [repeat constructor|]. inversion_clear H. constructor; [apply IH; assumption|]. apply Forall_app. split; [exact F|]. constructor; [assumption|constructor]. Qed.

(** The last line: all cells filled, 100, and the end of the line. *)
Definition end_line (o : options) (t : text) : Prop := exists l, bar_line o (o_length o) [49; 48; 48] l /\ t = l ++ [10].

Definition row_step (r : Z * Z * text) : Z := fst (fst r).
Definition drawing (o : options) (start : Z) (s : drawn) : Prop := exists rows tail,
  written s = concat (map snd rows) ++ tail /\ Forall (line_after o) rows /\ StronglySorted before rows /\ Forall (fun r => start <= row_step r < o_total o) rows /\
  (tail = [] /\ start <= at_iteration s /\ Forall (fun r => row_step r < at_iteration s) rows \/
   end_line o tail /\ at_iteration s = o_total o /\ previous s <> None).

Lemma end_line_ok o : 0 <= o_length o -> end_line o (line_of o (times 9608 (o_length o)) [49; 48; 48] ++ [10]).
Proof. intros L. eexists. split; [|reflexivity]. split; [lia|]. unfold line_of, times. rewrite Z.sub_diag. reflexivity. Qed.

Lemma draw_drawing o start s : 0 <= start -> (0 <= o_dist o)%Q -> 0 <= o_length o -> drawing o start s -> exists s', draw o s = Ok s' /\ drawing o start s'.
Proof. intros S0 D0 L0 (rows & tail & W & F & S & K & T). unfold draw.
  destruct (match previous s with Some _ => at_iteration s =? o_total o | None => false end) eqn:Fin; [exists s; split; [reflexivity|]; exists rows, tail; tauto|].
  destruct T as [(-> & I & B)|(_ & E & P)]; [|destruct (previous s); [lia|congruence]]. rewrite app_nil_r in W.
  assert (End : forall rows' s', written s' = concat (map snd rows') -> Forall (line_after o) rows' -> StronglySorted before rows' -> Forall (fun r => start <= row_step r < o_total o) rows' -> drawing o start (draw_end o s')).
  { clear -L0. intros rows' s' W F S K. eexists rows', _. cbn [written draw_end at_iteration previous]. rewrite W. split; [reflexivity|]. do 3 (split; [assumption|]). right. split; [apply end_line_ok, L0|]. split; [reflexivity|discriminate]. }
  destruct (close_to_end o s) eqn:C; [eexists; split; [reflexivity|]; apply (End rows); assumption|].
  assert (C' : at_iteration s < o_total o). { unfold close_to_end in C. apply Z.nle_gt. intros X. apply Bool.not_true_iff_false in C. apply C, Qle_bool_iff. rewrite Zle_Qle in X. lra. }
  destruct (Z.eqb_spec (o_total o) 0) as [Z0|_]; [lia|]. cbn [at_iteration previous written]. clear Fin C.
  destruct (match previous s with Some q => _ | None => false end).
  { eexists. split; [reflexivity|]. exists rows, []. cbn [written at_iteration previous]. rewrite app_nil_r. do 4 (split; [assumption|]). left. split; [reflexivity|]. split; [lia|]. eapply Forall_impl; [|exact B]. cbn beta. intros; lia. }
  set (k := at_iteration s) in *. set (tot := o_total o) in *. set (len := o_length o) in *.
  assert (T0 : (0 < inject_Z tot)%Q) by (change 0%Q with (inject_Z 0); rewrite <- Zlt_Qlt; lia). assert (Tn : ~ (inject_Z tot == 0)%Q) by lra.
  assert (Lq : (0 <= inject_Z len)%Q) by (change 0%Q with (inject_Z 0); rewrite <- Zle_Qle; lia).
  set (filled := round_even (inject_Z len * inject_Z (k + 1) / inject_Z tot)).
  assert (N : nearest filled (inject_Z len * (inject_Z (k + 1) / inject_Z tot))) by (eapply nearest_proper; [|apply round_nearest]; field; exact Tn).
  assert (Mono : forall a b, a <= b -> (inject_Z len * (inject_Z a / inject_Z tot) <= inject_Z len * (inject_Z b / inject_Z tot))%Q).
  { intros a b Hab. rewrite Zle_Qle in Hab. rewrite !(Qmult_comm (inject_Z len)). apply Qmult_le_compat_r; [|exact Lq]. unfold Qdiv. apply Qmult_le_compat_r; [exact Hab|]. apply Qinv_le_0_compat. lra. }
  assert (Fl : 0 <= filled <= len).
  { split.
    - apply (nearest_mono 0 filled 0 (inject_Z len * (inject_Z (k + 1) / inject_Z tot))); [apply nearest_whole|exact N|]. eapply Qle_trans; [|apply (Mono 0 (k + 1)); lia]. apply Qle_lteq. right. change (inject_Z 0) with 0%Q. field. exact Tn.
    - apply (nearest_mono filled len (inject_Z len * (inject_Z (k + 1) / inject_Z tot)) (inject_Z len)); [exact N|apply nearest_whole|]. eapply Qle_trans; [apply (Mono (k + 1) tot); lia|]. apply Qle_lteq. right. field. exact Tn. }
  set (p := (100 * (inject_Z k / inject_Z tot))%Q).
  assert (P0 : (0 <= p)%Q). { unfold p. apply Qmult_le_0_compat; [lra|]. unfold Qdiv. apply Qmult_le_0_compat; [change 0%Q with (inject_Z 0); rewrite <- Zle_Qle; lia|apply Qinv_le_0_compat; lra]. }
  set (line := line_of o (times 9608 filled ++ times 45 (len - filled)) (format_fixed (o_decimals o) p)).
  set (rows' := rows ++ [(k, filled, line)]).
  assert (W' : written s ++ line = concat (map snd rows')) by (unfold rows'; rewrite map_app, concat_app, W; cbn [map concat snd]; rewrite app_nil_r; reflexivity).
  assert (F' : Forall (line_after o) rows').
  { apply Forall_app. split; [exact F|]. constructor; [|constructor]. split; [exact N|]. eexists. split; [apply format_ok, P0|]. split; [exact Fl|]. unfold line, line_of, times. rewrite <- !app_assoc. reflexivity. }
  assert (S' : StronglySorted before rows').
  { apply sorted_snoc; [exact S|]. rewrite Forall_forall in *. intros [[k' f'] t'] R. specialize (B _ R). specialize (F _ R). cbn in B. unfold before. split; [exact B|]. destruct F as [N' _]. eapply nearest_mono; [exact N'|exact N|]. apply Mono. lia. }
  assert (K' : Forall (fun r => start <= row_step r < tot) rows') by (apply Forall_app; split; [exact K|constructor; [cbn; lia|constructor]]).
  destruct (close_to_end o _).
  - eexists. split; [reflexivity|]. destruct (End rows' (Drawn (k + 1) (previous s) (written s ++ line)) W' F' S' K') as (r & t & A1 & A2 & A3 & A4 & A5). exists r, t. split; [exact A1|]. do 3 (split; [assumption|]).
    destruct A5 as [(-> & A5 & A6)|(A5 & A6 & _)]; [left; split; [reflexivity|]; split; [exact A5|exact A6]|right; split; [exact A5|]; split; [exact A6|discriminate]].
  - eexists. split; [reflexivity|]. exists rows', []. cbn [written at_iteration previous]. rewrite app_nil_r. split; [exact W'|]. do 3 (split; [assumption|]). left. split; [reflexivity|]. split; [lia|]. apply Forall_app. split; [eapply Forall_impl; [|exact B]; cbn beta; intros; lia|constructor; [cbn; lia|constructor]]. Qed.

Lemma draws_drawing o start : 0 <= start -> (0 <= o_dist o)%Q -> 0 <= o_length o -> forall n s, drawing o start s -> exists s', draws o n s = Ok s' /\ drawing o start s'.
Proof. intros S0 D0 L0. induction n as [|n IH]; intros s H; cbn [draws]; [exists s; split; [reflexivity|exact H]|]. destruct (draw_drawing o start s S0 D0 L0 H) as (s1 & E & H1). rewrite E. cbn [bind]. apply IH, H1. Qed.

(** C177.  Whatever is written is a sequence of lines of [bar_length] cells.  The
    lines stand for growing numbers of steps, and the filled part never gets
    shorter.  At most a last line follows, which is full. *)
Theorem C177_lines : forall o start n, 0 <= start -> (0 <= o_dist o)%Q -> 0 <= o_length o ->
  exists s rows tail, draws o n (drawn_new start) = Ok s /\ written s = concat (map snd rows) ++ tail /\ (tail = [] \/ end_line o tail) /\
    Forall (line_after o) rows /\ StronglySorted before rows /\ Forall (fun r => start <= fst (fst r) < o_total o) rows.
Proof. intros o start n S0 D0 L0. destruct (draws_drawing o start S0 D0 L0 n (drawn_new start)) as (s & E & rows & tail & W & F & S & K & T).
  - exists [], []. cbn. split; [reflexivity|]. split; [constructor|]. split; [constructor|]. split; [constructor|]. left. split; [reflexivity|]. split; [lia|constructor].
  - exists s, rows, tail. split; [exact E|]. split; [exact W|]. split; [destruct T as [(T & _)|(T & _)]; [left|right]; exact T|]. split; [exact F|]. split; [exact S|exact K]. Qed.
Print Assumptions C177_lines.

(** The calls take the same steps as in the model of C72 and C79. *)
Theorem C177_same_steps : forall o start n, match draws o n (drawn_new start), ProgressModel.calls (o_total o) (o_dist o) n (ProgressModel.bar_new start) with
  | Ok s, Ok b => at_iteration s = ProgressModel.iteration b /\ previous s = ProgressModel.prev_percent b
  | Err e, Err e' => e = e'
  | _, _ => False
  end.
Proof. intros o start n.
  assert (G : forall s b, at_iteration s = ProgressModel.iteration b -> previous s = ProgressModel.prev_percent b -> match draws o n s, ProgressModel.calls (o_total o) (o_dist o) n b with
    | Ok s, Ok b => at_iteration s = ProgressModel.iteration b /\ previous s = ProgressModel.prev_percent b | Err e, Err e' => e = e' | _, _ => False end); [|apply G; reflexivity].
  induction n as [|n IH]; intros [i q w] [i' q' out] E1 E2; cbn in E1, E2; subst i' q'; cbn [draws ProgressModel.calls]; [split; reflexivity|].
  unfold draw, ProgressModel.progress, close_to_end, ProgressModel.near_end, ProgressModel.Qlt_bool. cbn [at_iteration previous written ProgressModel.iteration ProgressModel.prev_percent ProgressModel.output].
  destruct (match q with Some _ => _ | None => false end); cbn [bind]; [apply IH; reflexivity|]. destruct (Qle_bool _ _); cbn [bind]; [apply IH; reflexivity|]. destruct (o_total o =? 0); cbn [bind]; [reflexivity|].
  destruct (match q with Some _ => _ | None => false end); cbn [bind]; [apply IH; reflexivity|]. destruct (Qle_bool _ _); cbn [bind]; apply IH; reflexivity. Qed.
Print Assumptions C177_same_steps.

(** What is written, line by line, is what the model of C72 and C79 calls printed:
    its numbers of lines and its percentages are those of the text. *)
Definition shows (o : options) (x : ProgressModel.printed) (t : text) : Prop :=
  match x with
  | ProgressModel.Partial p => exists filled percents, percent_text (o_decimals o) p percents /\ bar_line o filled percents t
  | ProgressModel.Last => end_line o t
  end.
Lemma filled_ok tot len k : 0 <= k -> k < tot -> 0 <= len -> 0 <= round_even (inject_Z len * inject_Z (k + 1) / inject_Z tot) <= len.
Proof. intros K0 K1 L0. pose proof (round_nearest (inject_Z len * inject_Z (k + 1) / inject_Z tot)) as N.
  assert (T0 : (0 < inject_Z tot)%Q) by (change 0%Q with (inject_Z 0); rewrite <- Zlt_Qlt; lia).
  assert (A : (0 <= inject_Z len * inject_Z (k + 1))%Q) by (rewrite <- inject_Z_mult; change 0%Q with (inject_Z 0); rewrite <- Zle_Qle; nia).
  assert (B : (inject_Z len * inject_Z (k + 1) <= inject_Z len * inject_Z tot)%Q) by (rewrite <- !inject_Z_mult, <- Zle_Qle; nia). split.
  - eapply nearest_mono; [apply (nearest_whole 0)|exact N|]. apply Qle_shift_div_l; [exact T0|]. change (inject_Z 0) with 0%Q. lra.
  - eapply nearest_mono; [exact N|apply (nearest_whole len)|]. apply Qle_shift_div_r; [exact T0|exact B]. Qed.
Theorem C177_output : forall o start n, 0 <= start -> (0 <= o_dist o)%Q -> 0 <= o_length o ->
  exists s b texts, draws o n (drawn_new start) = Ok s /\ ProgressModel.calls (o_total o) (o_dist o) n (ProgressModel.bar_new start) = Ok b /\
    written s = concat texts /\ Forall2 (shows o) (ProgressModel.output b) texts.
Proof. intros o start n S0 D0 L0.
  assert (G : forall s b texts, at_iteration s = ProgressModel.iteration b -> previous s = ProgressModel.prev_percent b -> written s = concat texts -> Forall2 (shows o) (ProgressModel.output b) texts -> (0 <= at_iteration s \/ at_iteration s = o_total o /\ previous s <> None) ->
    exists s' b' texts', draws o n s = Ok s' /\ ProgressModel.calls (o_total o) (o_dist o) n b = Ok b' /\ written s' = concat texts' /\ Forall2 (shows o) (ProgressModel.output b') texts').
  2: { apply (G (drawn_new start) (ProgressModel.bar_new start) []); try reflexivity; [constructor|left; exact S0]. }
  induction n as [|n IH]; intros [i q w] [i' q' out] texts E1 E2 W F V; cbn in E1, E2, W, F, V; subst i' q'; cbn [draws ProgressModel.calls]; [eexists _, _, texts; split; [reflexivity|]; split; [reflexivity|]; split; assumption|].
  assert (IE : forall q0 w' out' texts', w' = concat texts' -> Forall2 (shows o) out' texts' -> exists s' b' texts', draws o n (Drawn (o_total o) (Some q0) (w' ++ line_of o (times 9608 (o_length o)) [49; 48; 48] ++ [10])) = Ok s' /\ ProgressModel.calls (o_total o) (o_dist o) n (ProgressModel.Bar (o_total o) (Some q0) (out' ++ [ProgressModel.Last])) = Ok b' /\ written s' = concat texts' /\ Forall2 (shows o) (ProgressModel.output b') texts').
  { intros q0 w' out' texts' W' F'. apply (IH _ _ (texts' ++ [line_of o (times 9608 (o_length o)) [49; 48; 48] ++ [10]])); try reflexivity.
    - cbn [written]. rewrite concat_app, W'. cbn [concat]. rewrite app_nil_r. reflexivity.
    - apply Forall2_app; [exact F'|]. constructor; [apply end_line_ok, L0|constructor].
    - right. split; [reflexivity|discriminate]. }
  unfold draw, ProgressModel.progress, close_to_end, ProgressModel.near_end, ProgressModel.Qlt_bool. cbn [at_iteration previous written ProgressModel.iteration ProgressModel.prev_percent ProgressModel.output].
  destruct (match q with Some _ => i =? o_total o | None => false end) eqn:Fin; cbn [bind]; [apply (IH _ _ texts); try reflexivity; assumption|].
  destruct (Qle_bool (inject_Z (o_total o)) (inject_Z i + o_dist o)) eqn:C; cbn [bind]; [apply (IE 100%Q w out texts W F)|].
  assert (V' : 0 <= i) by (destruct V as [V|[V V2]]; [exact V|destruct q; [lia|congruence]]).
  assert (C' : i < o_total o). { apply Z.nle_gt. intros X. apply Bool.not_true_iff_false in C. apply C, Qle_bool_iff. rewrite Zle_Qle in X. lra. }
  clear C Fin V. destruct (Z.eqb_spec (o_total o) 0) as [Z0|_]; [lia|]. cbn [bind].
  destruct (match q with Some _ => _ | None => false end); cbn [bind]; [apply (IH _ _ texts); try reflexivity; try assumption; left; cbn; lia|].
  set (p := (100 * (inject_Z i / inject_Z (o_total o)))%Q). set (filled := round_even (inject_Z (o_length o) * inject_Z (i + 1) / inject_Z (o_total o))).
  assert (P0 : (0 <= p)%Q). { assert (T0 : (0 < inject_Z (o_total o))%Q) by (change 0%Q with (inject_Z 0); rewrite <- Zlt_Qlt; lia). unfold p. apply Qmult_le_0_compat; [lra|]. unfold Qdiv. apply Qmult_le_0_compat; [change 0%Q with (inject_Z 0); rewrite <- Zle_Qle; lia|apply Qinv_le_0_compat; lra]. }
  set (line := line_of o (times 9608 filled ++ times 45 (o_length o - filled)) (format_fixed (o_decimals o) p)).
  assert (Sh : shows o (ProgressModel.Partial p) line). { exists filled, (format_fixed (o_decimals o) p). split; [apply format_ok, P0|]. split; [apply filled_ok; assumption|]. unfold line, line_of, times. rewrite <- !app_assoc. reflexivity. }
  assert (W' : w ++ line = concat (texts ++ [line])) by (rewrite concat_app, W; cbn [concat]; rewrite app_nil_r; reflexivity).
  assert (F' : Forall2 (shows o) (out ++ [ProgressModel.Partial p]) (texts ++ [line])) by (apply Forall2_app; [exact F|constructor; [exact Sh|constructor]]).
  destruct (Qle_bool _ _); cbn [bind draw_end ProgressModel.go_to_end at_iteration previous written ProgressModel.iteration ProgressModel.prev_percent ProgressModel.output].
  - apply (IE p _ _ _ W' F').
  - apply (IH _ _ (texts ++ [line])); try reflexivity; [exact W'|exact F'|left; cbn; lia]. Qed.
Print Assumptions C177_output.

(** The claim that the filled part is the percentage printed beside it, up to one
    cell, is false: the first line of a loop of one step is full at 0.0%. *)
Theorem C177_agrees_refuted : exists o s filled t, (0 <= o_dist o)%Q /\ o_length o = 40 /\ draws o 1 (drawn_new 0) = Ok s /\
  bar_line o filled [48; 46; 48] t /\ filled = o_length o /\ exists rest, written s = t ++ rest.
Proof. exists (Options 1 0 [] [] 1 40). eexists _, 40, _. split; [discriminate|]. split; [reflexivity|]. split; [vm_compute; reflexivity|]. split; [split; [cbn; lia|reflexivity]|]. split; [reflexivity|]. eexists. vm_compute. reflexivity. Qed.
Print Assumptions C177_agrees_refuted.
(** What holds: the bar is ahead by the share of one step.  Missing: the step shown
    by the bar is not the one of the percentage. *)
Theorem C177_agrees_partial : forall o k filled t, 0 < o_total o -> line_after o (k, filled, t) ->
  (Qabs (inject_Z filled - inject_Z (o_length o) * (inject_Z k / inject_Z (o_total o)) - inject_Z (o_length o) / inject_Z (o_total o)) <= 1 # 2)%Q.
Proof. intros o k filled t T [N _]. apply nearest_bounds in N. apply Qabs_Qle_condition.
  assert (Tn : ~ (inject_Z (o_total o) == 0)%Q) by (intros X; change 0%Q with (inject_Z 0) in X; pose proof (proj1 (inject_Z_injective (o_total o) 0) X); lia).
  assert (E : (inject_Z (o_length o) * (inject_Z (k + 1) / inject_Z (o_total o)) == inject_Z (o_length o) * (inject_Z k / inject_Z (o_total o)) + inject_Z (o_length o) / inject_Z (o_total o))%Q) by (rewrite inject_Z_plus; change (inject_Z 1) with 1%Q; field; exact Tn).
  revert N E. generalize (inject_Z (o_length o) * (inject_Z (k + 1) / inject_Z (o_total o)))%Q (inject_Z (o_length o) * (inject_Z k / inject_Z (o_total o)))%Q (inject_Z (o_length o) / inject_Z (o_total o))%Q (inject_Z filled).
  clear. intros x y z f N E. split; lra. Qed.
Print Assumptions C177_agrees_partial.

Example C177_example : match draws (Options 8 2 [65] [66] 1 4) 3 (drawn_new 0) with
  | Ok s => written s = [13; 65; 32; 124; 45; 45; 45; 45; 124; 32; 48; 46; 48; 37; 32; 66] ++ [13; 65; 32; 124; 9608; 45; 45; 45; 124; 32; 49; 50; 46; 53; 37; 32; 66] ++ [13; 65; 32; 124; 9608; 9608; 45; 45; 124; 32; 50; 53; 46; 48; 37; 32; 66]
  | Err _ => False end /\
  match draws (Options 8 2 [65] [66] 1 4) 8 (drawn_new 0) with Ok s => skipn 92 (written s) = [124; 32; 54; 50; 46; 53; 37; 32; 66] ++ [13; 65; 32; 124; 9608; 9608; 9608; 9608; 124; 32; 49; 48; 48; 37; 32; 66] ++ [10] | Err _ => False end.
Proof. split; vm_compute; reflexivity. Qed.
