(** Proofs about the readers. *)
From Verif Require Import ListLemmas.
From Verif Require Export ReaderModel ReaderSpec.
From Coq Require Import ZifyBool ZifyNat.

(** ** Lines *)
Lemma lines_from_line l : forall acc r, ~ In 10 l -> lines_from acc (l ++ 10 :: r) = (acc ++ l ++ [10]) :: lines_from [] r.
Proof.
  induction l as [|c l IH]; intros acc r H; cbn [app lines_from]; [reflexivity|].
  unfold newline; destruct (Z.eqb_spec c 10) as [E|n]; [exfalso; apply H; left; auto|].
  rewrite IH by (intros X; apply H; right; auto). now rewrite <- !app_assoc.
Qed.
Lemma lines_file ls : Forall (fun l => ~ In 10 l) ls -> lines (file_of ls) = map (fun l => l ++ [10]) ls.
Proof.
  unfold lines, file_of. induction 1 as [|l ls H _ IH]; [reflexivity|]. cbn [flat_map map].
  rewrite <- app_assoc. cbn [app]. rewrite lines_from_line by auto. now rewrite IH.
Qed.

Lemma drop_while_none f s : (forall c, hd_error s = Some c -> f c = false) -> drop_while f s = s.
Proof. destruct s as [|c s]; [reflexivity|]. intros H; cbn. now rewrite (H c). Qed.
Lemma hd_rev {A} (l : list A) c : hd_error (rev l) = Some c -> exists p, l = p ++ [c].
Proof. destruct l as [|x l _] using rev_ind; [discriminate|]. rewrite rev_app_distr. intros E. injection E as ->. now exists l. Qed.
Lemma rstrip_nl_line l : ~ In 10 l -> rstrip_nl (l ++ [10]) = l.
Proof.
  intros H. unfold rstrip_nl. rewrite rev_app_distr. cbn [rev app drop_while]. change (10 =? newline) with true. cbn iota.
  rewrite drop_while_none; [apply rev_involutive|]. intros c E. apply hd_rev in E as [p ->]. unfold newline. destruct (Z.eqb_spec c 10) as [E|]; [|reflexivity].
  exfalso; apply H; apply in_app_iff; right; left; auto.
Qed.
Lemma rstrip_nl_nl l : rstrip_nl (l ++ [10]) = rstrip_nl l.
Proof. unfold rstrip_nl. rewrite rev_app_distr. reflexivity. Qed.

(** ** Numbers *)
Lemma hex_char_digit c d : hex_char c d -> hex_digit c = Some d.
Proof. unfold hex_digit. destruct 1.
  - rewrite (proj2 (Z.leb_le 48 (48 + d))), (proj2 (Z.leb_le (48 + d) 57)) by lia. cbn [andb]. f_equal; lia.
  - rewrite (proj2 (Z.leb_gt (87 + d) 57)), andb_false_r by lia. rewrite (proj2 (Z.leb_le 97 (87 + d))), (proj2 (Z.leb_le (87 + d) 102)) by lia. cbn [andb]. f_equal; lia.
  - rewrite (proj2 (Z.leb_gt (55 + d) 57)), andb_false_r by lia. rewrite (proj2 (Z.leb_gt 97 (55 + d))) by lia. cbn [andb].
    rewrite (proj2 (Z.leb_le 65 (55 + d))), (proj2 (Z.leb_le (55 + d) 70)) by lia. cbn [andb]. f_equal; lia.
Qed.
Lemma hex_char_range c d : hex_char c d -> 48 <= c <= 57 \/ 65 <= c <= 70 \/ 97 <= c <= 102.
Proof. destruct 1; lia. Qed.
Lemma parse_digits s ds : Forall2 hex_char s ds -> forall acc, parse_hex_from acc s = Ok (fold_left (fun a d => 16 * a + d) ds acc).
Proof. induction 1 as [|c d s ds H _ IH]; intros acc; [reflexivity|]. cbn [parse_hex_from fold_left]. rewrite (hex_char_digit _ _ H). apply IH. Qed.
Definition hexes (s : text) : Prop := Forall (fun c => 48 <= c <= 57 \/ 65 <= c <= 70 \/ 97 <= c <= 102) s.
Lemma hex_text_hexes s v : hex_text s v -> hexes s.
Proof. intros [_ (ds & H & _)]. induction H; constructor; auto. eapply hex_char_range; eauto. Qed.
Lemma hex_text_digits s v : hex_text s v -> hex_digits s = Ok v.
Proof. intros [N (ds & H & E)]. destruct s; [congruence|]. unfold hex_digits. rewrite (parse_digits _ _ H). now subst. Qed.
Lemma hexes_not_space s c : hexes s -> In c s -> is_space c = false.
Proof. intros H I. unfold hexes in H. rewrite Forall_forall in H. specialize (H c I). unfold is_space. lia. Qed.
Lemma hexes_notin s c : hexes s -> ~ (48 <= c <= 57 \/ 65 <= c <= 70 \/ 97 <= c <= 102) -> ~ In c s.
Proof. intros H N I. unfold hexes in H. rewrite Forall_forall in H. auto. Qed.

Lemma strip_none s : (forall c, In c s -> is_space c = false) -> strip s = s.
Proof.
  intros H. unfold strip, rstrip. rewrite (drop_while_none _ s).
  - rewrite drop_while_none; [apply rev_involutive|]. intros c E. apply hd_rev in E as [p ->]. apply H, in_app_iff; right; left; auto.
  - intros c E. destruct s; [discriminate|]. injection E as ->. apply H. now left.
Qed.
Lemma rstrip_keep s : (forall p c, s = p ++ [c] -> is_space c = false) -> rstrip s = s.
Proof. intros H. unfold rstrip. rewrite drop_while_none; [apply rev_involutive|]. intros c E. apply hd_rev in E as [p E]. eauto. Qed.
Lemma rstrip_line s : rstrip (s ++ [10]) = rstrip s.
Proof. unfold rstrip. rewrite rev_app_distr. reflexivity. Qed.
Lemma unprefix_hexes s : hexes s -> unprefix s = s.
Proof.
  intros H. destruct s as [|c [|c' s]]; [reflexivity| |].
  - unfold unprefix. destruct c as [|p|p]; try reflexivity. repeat (destruct p as [p|p|]; try reflexivity).
  - unfold hexes in H. inversion H as [|? ? _ H1]; subst. inversion H1 as [|? ? H2 _]; subst.
    assert (c' <> 120 /\ c' <> 88) as [A B] by lia. unfold unprefix.
    destruct c as [|p|p]; try reflexivity. repeat (destruct p as [p|p|]; try reflexivity).
    destruct c' as [|p|p]; try reflexivity. repeat (destruct p as [p|p|]; try reflexivity); congruence.
Qed.
Lemma int16_unsigned s : (forall c, In c s -> is_space c = false) -> (forall c, hd_error s = Some c -> 48 <= c) -> int16 s = hex_digits (unprefix s).
Proof.
  intros H F. unfold int16. rewrite strip_none by auto. destruct s as [|c s]; [reflexivity|]. specialize (F c eq_refl).
  destruct c as [|p|p]; try lia. repeat (destruct p as [p|p|]; try reflexivity; try lia).
Qed.
Lemma int16_hex s v : hex_text s v -> int16 s = Ok v.
Proof.
  intros H. pose proof (hex_text_hexes _ _ H) as X. rewrite int16_unsigned.
  - rewrite unprefix_hexes by auto. now apply hex_text_digits.
  - intros c; apply hexes_not_space; auto.
  - intros c E. destruct s; [discriminate|]. injection E as ->. inversion X; lia.
Qed.
Lemma int16_elf s v : elf_number s v -> int16 s = Ok v.
Proof.
  intros [H | (s' & -> & H)]; [now apply int16_hex|]. pose proof (hex_text_hexes _ _ H) as X.
  rewrite int16_unsigned.
  - now apply hex_text_digits.
  - intros c [<- | [<- | I]]; try reflexivity. eapply hexes_not_space; eauto.
  - intros c E. injection E as <-. lia.
Qed.
Lemma elf_chars s v : elf_number s v -> s <> [] /\ forall c, In c s -> 48 <= c <= 57 \/ 65 <= c <= 70 \/ 97 <= c <= 102 \/ c = 120.
Proof.
  intros [H | (s' & -> & H)]; pose proof (hex_text_hexes _ _ H) as X; unfold hexes in X; rewrite Forall_forall in X; split; try congruence.
  - destruct H; auto.
  - intros c I. specialize (X c I). lia.
  - intros c [<- | [<- | I]]; [lia|lia|specialize (X c I); lia].
Qed.

(** ** Splitting *)
Lemma split_once_at c a r : ~ In c a -> split_once c (a ++ c :: r) = (a, Some r).
Proof.
  induction a as [|x a IH]; intros N; cbn [app split_once].
  - now rewrite Z.eqb_refl.
  - destruct (Z.eqb_spec x c); [exfalso; apply N; left; auto|]. rewrite IH by (intros I; apply N; right; auto). reflexivity.
Qed.
Lemma split_all_at c a r : ~ In c a -> split_all c (a ++ c :: r) = a :: split_all c r.
Proof.
  induction a as [|x a IH]; intros N; cbn [app split_all].
  - now rewrite Z.eqb_refl.
  - destruct (Z.eqb_spec x c); [exfalso; apply N; left; auto|]. rewrite IH by (intros I; apply N; right; auto). reflexivity.
Qed.
Lemma split_all_none c a : ~ In c a -> split_all c a = [a].
Proof.
  induction a as [|x a IH]; intros N; cbn [split_all]; [reflexivity|].
  destruct (Z.eqb_spec x c); [exfalso; apply N; left; auto|]. rewrite IH by (intros I; apply N; right; auto). reflexivity.
Qed.
Lemma split_all_first c a r : ~ In c a -> exists q ps, split_all c (a ++ r) = (a ++ q) :: ps.
Proof.
  induction a as [|x a IH]; intros N; cbn [app split_all].
  - destruct r as [|y r]; cbn [split_all]; [now eexists _, _|]. destruct (y =? c); [now eexists _, _|]. destruct (split_all c r); now eexists _, _.
  - destruct (Z.eqb_spec x c); [exfalso; apply N; left; auto|]. destruct IH as (q & ps & E); [intros I; apply N; right; auto|]. rewrite E. now eexists _, _.
Qed.
Lemma startswith_app a q : startswith a (a ++ q) = true.
Proof. induction a as [|x a IH]; [reflexivity|]. cbn. now rewrite Z.eqb_refl, IH. Qed.
Lemma before_double_step a x r : ~ In 32 a -> x <> 32 -> before_double (a ++ 32 :: x :: r) = a ++ 32 :: before_double (x :: r).
Proof.
  intros N X. induction a as [|c a IH].
  - cbn [app]. change (before_double (32 :: x :: r)) with (if (32 =? 32) && (x =? 32) then [] else 32 :: before_double (x :: r)).
    rewrite (proj2 (Z.eqb_neq x 32)) by auto. now rewrite andb_false_r.
  - assert (c <> 32) by (intros ->; apply N; left; auto).
    change ((c :: a) ++ 32 :: x :: r) with (c :: (a ++ 32 :: x :: r)).
    assert (S : forall s, s <> [] -> before_double (c :: s) = c :: before_double s).
    { intros s Ns. destruct s as [|y s]; [congruence|].
      change (before_double (c :: y :: s)) with (if (c =? 32) && (y =? 32) then [] else c :: before_double (y :: s)).
      now rewrite (proj2 (Z.eqb_neq c 32)) by auto. }
    rewrite S by (destruct a; discriminate). rewrite IH by (intros I; apply N; right; auto). reflexivity.
Qed.
Lemma before_double_end a r : ~ In 32 a -> before_double (a ++ 32 :: 32 :: r) = a.
Proof.
  induction a as [|c a IH]; intros N; [reflexivity|].
  assert (c <> 32) by (intros ->; apply N; left; auto).
  assert (S : forall s, s <> [] -> before_double (c :: s) = c :: before_double s).
  { intros s Ns. destruct s as [|y s]; [congruence|].
    change (before_double (c :: y :: s)) with (if (c =? 32) && (y =? 32) then [] else c :: before_double (y :: s)).
    now rewrite (proj2 (Z.eqb_neq c 32)) by auto. }
  cbn [app]. rewrite S by (destruct a; discriminate). rewrite IH by (intros I; apply N; right; auto). reflexivity.
Qed.
Lemma before_double_none a : ~ In 32 a -> before_double a = a.
Proof.
  induction a as [|c a IH]; intros N; [reflexivity|]. destruct a as [|y a]; [reflexivity|].
  change (before_double (c :: y :: a)) with (if (c =? 32) && (y =? 32) then [] else c :: before_double (y :: a)).
  rewrite (proj2 (Z.eqb_neq c 32)) by (intros ->; apply N; left; auto). cbn [andb]. rewrite IH by (intros I; apply N; right; auto). reflexivity.
Qed.

(** ** The text reader *)
Lemma byte_two b v : length b = 2%nat -> hex_text b v ->
  exists x y d e, b = [x; y] /\ hex_char x d /\ hex_char y e /\ v = 16 * d + e.
Proof.
  intros L [_ (ds & F & E)]. destruct b as [|x [|y [|? ?]]]; try discriminate.
  inversion F as [|? d ? ds1 H1 F1]; subst. inversion F1 as [|? e ? ds2 H2 F2]; subst. inversion F2; subst.
  exists x, y, d, e. cbn. repeat split; auto; lia.
Qed.
Lemma hex_not_space x d : hex_char x d -> is_space x = false.
Proof. intros H. apply hex_char_range in H. unfold is_space. lia. Qed.
Lemma hex_not_32 x d : hex_char x d -> x <> 32.
Proof. intros H. apply hex_char_range in H. lia. Qed.
Lemma text_line_asm l : asm_ok l -> text_line (asm_text l) = Ok (asm_encoding l, al_at l).
Proof.
  intros ((P1 & P2) & A & L & B & C). unfold text_line, asm_text, asm_encoding.
  destruct l as [pre addr bytes comment at_ values]; cbn [al_prefix al_address al_bytes al_comment al_at al_values] in *.
  change (32 :: pre ++ 58 :: ?r) with ((32 :: pre) ++ 58 :: r).
  change (32 :: (pre ++ 58 :: ?r)) with ((32 :: pre) ++ 58 :: r).
  rewrite split_once_at by (intros [X|X]; [discriminate | auto]). cbn [snd].
  destruct bytes as [|b0 [|b1 [|b2 [|b3 [|]]]]]; try discriminate.
  inversion B as [|? v0 ? w0 [L0 B0] F0]; subst. inversion F0 as [|? v1 ? w1 [L1 B1] F1]; subst.
  inversion F1 as [|? v2 ? w2 [L2 B2] F2]; subst. inversion F2 as [|? v3 ? w3 [L3 B3] F3]; subst. inversion F3; subst.
  apply byte_two in B0 as (x0 & y0 & d0 & e0 & -> & X0 & Y0 & ->); [|auto].
  apply byte_two in B1 as (x1 & y1 & d1 & e1 & -> & X1 & Y1 & ->); [|auto].
  apply byte_two in B2 as (x2 & y2 & d2 & e2 & -> & X2 & Y2 & ->); [|auto].
  apply byte_two in B3 as (x3 & y3 & d3 & e3 & -> & X3 & Y3 & ->); [|auto].
  cbn [flat_map app].
  pose proof (hex_text_hexes _ _ A) as AH.
  assert (NA : ~ In 32 addr) by (apply hexes_notin; auto; lia).
  pose proof (hex_not_32 _ _ X0) as NX0. pose proof (hex_not_32 _ _ Y0) as NY0. pose proof (hex_not_32 _ _ X1) as NX1. pose proof (hex_not_32 _ _ Y1) as NY1.
  pose proof (hex_not_32 _ _ X2) as NX2. pose proof (hex_not_32 _ _ Y2) as NY2. pose proof (hex_not_32 _ _ X3) as NX3. pose proof (hex_not_32 _ _ Y3) as NY3.
  rewrite before_double_step by auto.
  change (x0 :: y0 :: 32 :: ?r) with ([x0; y0] ++ 32 :: r).
  rewrite before_double_step by (cbn; intuition).
  change (x1 :: y1 :: 32 :: ?r) with ([x1; y1] ++ 32 :: r).
  rewrite before_double_step by (cbn; intuition).
  change (x2 :: y2 :: 32 :: ?r) with ([x2; y2] ++ 32 :: r).
  rewrite before_double_step by (cbn; intuition).
  assert (E : before_double (x3 :: y3 :: match comment with Some c => 32 :: 32 :: c | None => [] end) = [x3; y3]).
  { destruct comment as [c|].
    - change (x3 :: y3 :: 32 :: 32 :: c) with ([x3; y3] ++ 32 :: 32 :: c). apply before_double_end. cbn; intuition.
    - apply before_double_none. cbn; intuition. }
  rewrite E. cbn [app]. rewrite split_once_at by auto.
  rewrite (int16_hex _ _ A). cbn [bind].
  assert (S : strip_spaces [x0; y0; 32; x1; y1; 32; x2; y2; 32; x3; y3] = [x0; y0; x1; y1; x2; y2; x3; y3]).
  { unfold strip_spaces. cbn [filter]. change (is_space 32) with true.
    rewrite (hex_not_space _ _ X0), (hex_not_space _ _ Y0), (hex_not_space _ _ X1), (hex_not_space _ _ Y1),
      (hex_not_space _ _ X2), (hex_not_space _ _ Y2), (hex_not_space _ _ X3), (hex_not_space _ _ Y3). reflexivity. }
  unfold reverse_endianess_str. rewrite S.
  change (slice [x0; y0; x1; y1; x2; y2; x3; y3] 6 8 ++ slice [x0; y0; x1; y1; x2; y2; x3; y3] 4 6 ++ slice [x0; y0; x1; y1; x2; y2; x3; y3] 2 4 ++ slice [x0; y0; x1; y1; x2; y2; x3; y3] 0 2)
    with [x3; y3; x2; y2; x1; y1; x0; y0].
  unfold parse_hex.
  assert (S2 : strip_spaces [x3; y3; x2; y2; x1; y1; x0; y0] = [x3; y3; x2; y2; x1; y1; x0; y0]).
  { unfold strip_spaces. cbn [filter].
    rewrite (hex_not_space _ _ X0), (hex_not_space _ _ Y0), (hex_not_space _ _ X1), (hex_not_space _ _ Y1),
      (hex_not_space _ _ X2), (hex_not_space _ _ Y2), (hex_not_space _ _ X3), (hex_not_space _ _ Y3). reflexivity. }
  rewrite S2. cbn [parse_hex_from].
  rewrite (hex_char_digit _ _ X3), (hex_char_digit _ _ Y3), (hex_char_digit _ _ X2), (hex_char_digit _ _ Y2),
    (hex_char_digit _ _ X1), (hex_char_digit _ _ Y1), (hex_char_digit _ _ X0), (hex_char_digit _ _ Y0).
  cbn [bind fold_right]. do 2 f_equal. lia.
Qed.
Lemma asm_text_nl l : asm_ok l -> ~ In 10 (asm_text l).
Proof.
  intros ((P1 & P2) & A & L & B & C). unfold asm_text.
  apply hex_text_hexes in A.
  intros [X|X]; [discriminate|]. apply in_app_iff in X as [X|X]; [auto|]. destruct X as [X|X]; [discriminate|].
  apply in_app_iff in X as [X|X]; [revert X; apply hexes_notin; auto; lia|].
  apply in_app_iff in X as [X|X].
  - apply in_flat_map in X as (b & I & [X|X]); [discriminate|].
    assert (hexes b). { clear -B I. induction B as [|b0 v0 bs vs [_ H] _ IH]; [destruct I|]. destruct I as [->|I]; auto. eapply hex_text_hexes; eauto. }
    revert X. apply hexes_notin; auto; lia.
  - destruct (al_comment l) as [c|]; [|destruct X]. destruct X as [X|[X|X]]; try discriminate. eapply C; eauto.
Qed.
Lemma text_read_items xs : Forall asm_item_ok xs -> text_read_instructions (file_of (map asm_item_text xs)) = Ok (asm_insts xs).
Proof.
  intros H. unfold text_read_instructions. rewrite lines_file.
  2: { rewrite Forall_map. eapply Forall_impl; [|exact H]. intros [l|s] X; [apply asm_text_nl; auto|apply X]. }
  assert (G : forall acc, foldM (fun result line => match line with 32 :: _ => let* i := text_line (rstrip_nl line) in Ok (result ++ [i]) | _ => Ok result end)
    (map (fun l => l ++ [10]) (map asm_item_text xs)) acc = Ok (acc ++ asm_insts xs)).
  { induction H as [|x xs H _ IH]; intros acc; [cbn; now rewrite app_nil_r|]. cbn [map foldM asm_insts flat_map].
    destruct x as [l|s]; cbn [asm_item_text asm_item_ok] in *.
    - assert (E : exists t, asm_text l ++ [10] = 32 :: t) by (eexists; reflexivity). destruct E as [t E]. rewrite E, <- E.
      rewrite rstrip_nl_line by (apply asm_text_nl; auto). rewrite text_line_asm by auto. cbn [bind]. rewrite IH. now rewrite <- app_assoc.
    - assert (E : exists c t, s ++ [10] = c :: t /\ c <> 32).
      { destruct s as [|c s]; [exists 10, []; split; [reflexivity|lia]|]. exists c, (s ++ [10]). split; [reflexivity|]. now apply H. }
      destruct E as (c & t & E & N). rewrite E.
      assert (M : forall A (u v : A), match c :: t with 32 :: _ => u | _ => v end = v).
      { intros A u v. destruct c as [|p|p]; try reflexivity. repeat (destruct p as [p|p|]; try reflexivity). congruence. }
      rewrite M. cbn [bind app]. apply IH. }
  apply G.
Qed.

(** ** Function headers *)
Lemma is_space_blank c : is_space c = true <-> blank c.
Proof. unfold is_space, blank. cbn [In]. lia. Qed.
Lemma is_word_char c : is_word c = true <-> word_char c.
Proof. unfold is_word, word_char. lia. Qed.
Lemma is_lower_hex_char c : is_lower_hex c = true <-> lower_hex c.
Proof. unfold is_lower_hex, lower_hex. lia. Qed.
Lemma drop_while_split f s : exists p, s = p ++ drop_while f s /\ Forall (fun c => f c = true) p.
Proof.
  induction s as [|c s (p & E & F)]; [now exists []|]. cbn [drop_while]. destruct (f c) eqn:X.
  - exists (c :: p). split; [cbn; congruence|]. now constructor.
  - now exists [].
Qed.
Lemma drop_while_app f p c s : Forall (fun c => f c = true) p -> f c = false -> drop_while f (p ++ c :: s) = c :: s.
Proof. intros H N. induction H as [|x p X _ IH]; cbn; [now rewrite N|now rewrite X]. Qed.
Lemma match_char k c (s : text) A (f : text -> A) (v : A) : 0 <= k ->
  match c =? k with true => f s | false => v end = (if c =? k then f s else v).
Proof. reflexivity. Qed.
Lemma header_iff line : is_header line = true <-> function_header line.
Proof.
  split.
  - unfold is_header. intros H. destruct line as [|c s]; [discriminate|].
    assert (c = 46) as -> by (destruct c as [|p|p]; try discriminate; repeat (destruct p as [p|p|]; try discriminate); reflexivity).
    cbn iota in H. destruct s as [|w0 s]; [discriminate|]. apply andb_true_iff in H as [W H].
    destruct (drop_while_split is_word (w0 :: s)) as (w & E & F).
    destruct (drop_while is_word (w0 :: s)) as [|c s2]; [discriminate|].
    assert (c = 58) as -> by (destruct c as [|p|p]; try discriminate; repeat (destruct p as [p|p|]; try discriminate); reflexivity).
    cbn iota in H. destruct s2 as [|h s2]; [discriminate|]. apply andb_true_iff in H as [X H].
    destruct (drop_while_split is_lower_hex (h :: s2)) as (x & E2 & F2).
    destruct (drop_while_split is_space (drop_while is_lower_hex (h :: s2))) as (b & E3 & F3).
    set (d2 := drop_while is_lower_hex (h :: s2)) in *.
    destruct (drop_while is_space d2) as [|c s3]; [discriminate|].
    assert (c = 60) as -> by (destruct c as [|p|p]; try discriminate; repeat (destruct p as [p|p|]; try discriminate); reflexivity).
    cbn iota in H. destruct s3 as [|c r]; [discriminate|].
    exists w, x, b, c, r. repeat split.
    + rewrite E, E2, E3. reflexivity.
    + intros ->. cbn in E. injection E as -> _. discriminate.
    + eapply Forall_impl; [|exact F]. intros; now apply is_word_char.
    + intros ->. cbn [app] in E2. subst d2. cbn [drop_while] in E2. rewrite X in E2.
      assert (L : (length (drop_while is_lower_hex s2) <= length s2)%nat).
      { destruct (drop_while_split is_lower_hex s2) as (q & Q & _). rewrite Q at 2. rewrite app_length. lia. }
      rewrite <- E2 in L. cbn in L. lia.
    + eapply Forall_impl; [|exact F2]. intros; now apply is_lower_hex_char.
    + eapply Forall_impl; [|exact F3]. intros; now apply is_space_blank.
    + cbn [In]. rewrite <- is_word_char. destruct (is_word c); [now left|]. rewrite orb_false_r in H. right. lia.
  - intros (w & x & s & c & r & -> & Nw & Fw & Nx & Fx & Fs & C).
    destruct w as [|w0 w]; [congruence|]. destruct x as [|x0 x]; [congruence|].
    unfold is_header. change ((w0 :: w) ++ ?r) with (w0 :: (w ++ r)). cbn iota.
    inversion Fw as [|? ? W0 _]; subst. apply is_word_char in W0. rewrite W0. cbn [andb].
    change (w0 :: w ++ ?r) with ((w0 :: w) ++ r). rewrite drop_while_app; [|eapply Forall_impl; [|exact Fw]; intros; now apply is_word_char|reflexivity].
    change ((x0 :: x) ++ ?r) with (x0 :: (x ++ r)). cbn iota.
    inversion Fx as [|? ? X0 _]; subst. apply is_lower_hex_char in X0. rewrite X0. cbn [andb].
    change (x0 :: x ++ ?r) with ((x0 :: x) ++ r).
    assert (E : drop_while is_space (drop_while is_lower_hex ((x0 :: x) ++ s ++ 60 :: c :: r)) = 60 :: c :: r).
    { destruct s as [|s0 s].
      - cbn [app]. change (x0 :: x ++ ?r) with ((x0 :: x) ++ r). rewrite drop_while_app; [reflexivity| |reflexivity]. eapply Forall_impl; [|exact Fx]; intros; now apply is_lower_hex_char.
      - assert (S0 : is_lower_hex s0 = false). { inversion Fs as [|? ? S0 _]; subst. unfold blank in S0. cbn [In] in S0. unfold is_lower_hex. lia. }
        change ((s0 :: s) ++ 60 :: c :: r) with (s0 :: (s ++ 60 :: c :: r)). rewrite drop_while_app; [|eapply Forall_impl; [|exact Fx]; intros; now apply is_lower_hex_char|exact S0].
        change (s0 :: s ++ 60 :: c :: r) with ((s0 :: s) ++ 60 :: c :: r). apply drop_while_app; [|reflexivity]. eapply Forall_impl; [|exact Fs]; intros; now apply is_space_blank. }
    rewrite E. destruct C as [C|C]; [apply is_word_char in C; rewrite C; apply orb_true_r|]. cbn [In] in C. lia.
Qed.

(** ** Functions of the text reader *)
Lemma append_last_flat fs i : fs <> [] -> flat_map snd (append_last fs i) = flat_map snd fs ++ [i].
Proof.
  induction fs as [|[n l] fs IH]; intros N; [congruence|]. destruct fs as [|g fs]; [cbn; now rewrite !app_nil_r|].
  change (append_last ((n, l) :: g :: fs) i) with ((n, l) :: append_last (g :: fs) i). cbn [flat_map]. cbn [flat_map] in IH. rewrite IH by discriminate. cbn [snd]. now rewrite app_assoc.
Qed.
Lemma append_last_ne fs i : fs <> [] -> append_last fs i <> [].
Proof. destruct fs as [|[n l] [|g fs]]; intros; [congruence|discriminate|discriminate]. Qed.
Lemma append_last_snoc fs n l i : append_last (fs ++ [(n, l)]) i = fs ++ [(n, l ++ [i])].
Proof. induction fs as [|f fs IH]; [reflexivity|]. cbn [app]. destruct f. destruct fs as [|g fs]; [reflexivity|]. change (append_last ((t, l0) :: (g :: fs) ++ [(n, l)]) i) with ((t, l0) :: append_last ((g :: fs) ++ [(n, l)]) i). now rewrite IH. Qed.

Definition line_ok (line : text) : Prop := exists c r, line = c :: r /\ rstrip_nl line = match rstrip_nl line with [] => [] | _ :: _ => rstrip_nl line end.
Lemma rstrip_nl_head line : (exists r, line = 32 :: r) <-> (exists r, rstrip_nl line = 32 :: r).
Proof.
  assert (E : exists p, line = rstrip_nl line ++ p /\ Forall (fun c => c = 10) p).
  { unfold rstrip_nl. destruct (drop_while_split (fun c => c =? newline) (rev line)) as (p & E & F). exists (rev p). split.
    - rewrite <- rev_app_distr, <- E. now rewrite rev_involutive.
    - apply Forall_rev. eapply Forall_impl; [|exact F]. cbn. intros a. unfold newline. lia. }
  destruct E as (p & E & F). revert E. generalize (rstrip_nl line). intros t E. rewrite E. destruct t as [|c s]; cbn [app].
  - split; intros [r X]; [|discriminate]. subst p. inversion F; lia.
  - split; intros [r X]; injection X as -> _; eauto.
Qed.
Lemma match_blank {A} (line : text) (u v : A) : (exists r, line = 32 :: r) -> match line with 32 :: _ => u | _ => v end = u.
Proof. intros [r ->]. reflexivity. Qed.
Lemma match_not_blank {A} (line : text) (u v : A) : ~ (exists r, line = 32 :: r) -> match line with 32 :: _ => u | _ => v end = v.
Proof. intros N. destruct line as [|c t]; [reflexivity|]. destruct c as [|p|p]; try reflexivity. repeat (destruct p as [p|p|]; try reflexivity). exfalso; eauto. Qed.
Lemma blank_dec (line : text) : (exists r, line = 32 :: r) \/ ~ (exists r, line = 32 :: r).
Proof. destruct line as [|c t]; [right; intros [r X]; discriminate|]. destruct (Z.eq_dec c 32) as [->|n]; [left; eauto|right]. intros [r X]; injection X as -> _; congruence. Qed.
Lemma header_not_blank line : is_header line = true -> ~ (exists r, line = 32 :: r).
Proof. intros H [r ->]. discriminate. Qed.

Definition fun_step (fs : list named) (line : text) : result (list named) :=
    let line := rstrip_nl line in
    if is_header line then Ok (fs ++ [(line, [])])
    else match line with
         | 32 :: _ => let* i := text_line line in Ok (append_last fs i)
         | _ => Ok fs
         end.
Definition inst_step (result : list inst) (line : text) : Py.result (list inst) :=
    match line with
    | 32 :: _ => let* i := text_line (rstrip_nl line) in Ok (result ++ [i])
    | _ => Ok result
    end.
Lemma inst_step_blank acc line : (exists r, line = 32 :: r) -> inst_step acc line = (let* i := text_line (rstrip_nl line) in Ok (acc ++ [i])).
Proof. apply (match_blank line). Qed.
Lemma inst_step_other acc line : ~ (exists r, line = 32 :: r) -> inst_step acc line = Ok acc.
Proof. apply (match_not_blank line). Qed.
Lemma fun_step_header fs line : is_header (rstrip_nl line) = true -> fun_step fs line = Ok (fs ++ [(rstrip_nl line, [])]).
Proof. intros H. unfold fun_step. cbv zeta. now rewrite H. Qed.
Lemma fun_step_blank fs line : is_header (rstrip_nl line) = false -> (exists r, line = 32 :: r) -> fun_step fs line = (let* i := text_line (rstrip_nl line) in Ok (append_last fs i)).
Proof. intros H B. unfold fun_step. cbv zeta. rewrite H. rewrite rstrip_nl_head in B. now apply match_blank. Qed.
Lemma fun_step_other fs line : is_header (rstrip_nl line) = false -> ~ (exists r, line = 32 :: r) -> fun_step fs line = Ok fs.
Proof. intros H B. unfold fun_step. cbv zeta. rewrite H. rewrite rstrip_nl_head in B. now apply match_not_blank. Qed.
Lemma functions_same ls : forall fs acc, fs <> [] -> flat_map snd fs = acc ->
  match foldM fun_step ls fs, foldM inst_step ls acc with
  | Ok fs', Ok is' => flat_map snd fs' = is'
  | Err e, Err e' => e = e'
  | _, _ => False
  end.
Proof.
  induction ls as [|line ls IH]; intros fs acc N E; [exact E|]. cbn [foldM].
  destruct (is_header (rstrip_nl line)) eqn:H.
  - rewrite (fun_step_header _ _ H). apply header_not_blank in H. rewrite <- rstrip_nl_head in H. rewrite inst_step_other by auto. cbn [bind]. apply IH; [destruct fs; discriminate|].
    rewrite flat_map_app. cbn. now rewrite app_nil_r.
  - destruct (blank_dec line) as [B|B].
    + rewrite fun_step_blank, inst_step_blank by auto.
      destruct (text_line (rstrip_nl line)) as [i|e]; cbn [bind]; [|reflexivity]. apply IH; [now apply append_last_ne|]. rewrite append_last_flat by auto. congruence.
    + rewrite fun_step_other, inst_step_other by auto. cbn [bind]. now apply IH.
Qed.
Lemma functions_no_header ls : Forall (fun l => is_header (rstrip_nl l) = false) ls -> forall fs n acc,
  foldM fun_step ls (fs ++ [(n, acc)]) = rmap (fun is => fs ++ [(n, is)]) (foldM inst_step ls acc).
Proof.
  induction 1 as [|line ls H _ IH]; intros fs n acc; [reflexivity|]. cbn [foldM].
  destruct (blank_dec line) as [B|B].
  - rewrite fun_step_blank, inst_step_blank by auto.
    destruct (text_line (rstrip_nl line)) as [i|e]; cbn [bind rmap]; [|reflexivity]. rewrite append_last_snoc. apply IH.
  - rewrite fun_step_other, inst_step_other by auto. cbn [bind]. apply IH.
Qed.
Lemma no_header_lines ls : Forall (fun l => ~ In 10 l /\ ~ function_header l) ls -> Forall (fun l => is_header (rstrip_nl l) = false) (map (fun l => l ++ [10]) ls).
Proof. intros H. rewrite Forall_map. eapply Forall_impl; [|exact H]. cbn. intros l [A B]. rewrite rstrip_nl_line by auto. destruct (is_header l) eqn:E; [|reflexivity]. now apply header_iff in E. Qed.
Lemma functions_plain ls : Forall (fun l => ~ In 10 l /\ ~ function_header l) ls ->
  text_read_functions (file_of ls) = rmap (fun is => [(no_method, is)]) (text_read_instructions (file_of ls)).
Proof.
  intros H. unfold text_read_functions, text_read_instructions. rewrite lines_file by (eapply Forall_impl; [|exact H]; cbn; tauto).
  apply (functions_no_header _ (no_header_lines _ H) [] no_method []).
Qed.
Lemma functions_last us h vs : Forall (fun l => ~ In 10 l) us -> ~ In 10 h -> function_header h -> Forall (fun l => ~ In 10 l /\ ~ function_header l) vs ->
  text_read_functions (file_of (us ++ h :: vs)) =
  (let* fs := text_read_functions (file_of us) in let* is := text_read_instructions (file_of vs) in Ok (fs ++ [(h, is)])).
Proof.
  intros U N H V. assert (V' : Forall (fun l => ~ In 10 l) vs) by (eapply Forall_impl; [|exact V]; cbn; tauto).
  assert (TF : forall f, text_read_functions f = foldM fun_step (lines f) [(no_method, [])]) by reflexivity.
  assert (TI : forall f, text_read_instructions f = foldM inst_step (lines f) []) by reflexivity.
  rewrite !TF, TI, !lines_file; [|auto|auto|rewrite Forall_app; split; auto].
  rewrite map_app, foldM_app. cbn [map].
  destruct (foldM fun_step (map (fun l => l ++ [10]) us) [(no_method, [])]) as [fs|e]; cbn [bind]; [|reflexivity].
  cbn [foldM]. rewrite fun_step_header by (rewrite rstrip_nl_line by auto; now apply header_iff). rewrite rstrip_nl_line by auto. cbn [bind].
  rewrite (functions_no_header _ (no_header_lines _ V)). destruct (foldM inst_step _ []); reflexivity.
Qed.
