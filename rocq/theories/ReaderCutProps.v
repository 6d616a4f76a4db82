(** C161: a listing of which the end is missing. *)
From Verif Require Import ListLemmas BitsModel IoModel ReaderModel ReaderSpec ReaderProofs ReaderProps.
From Coq Require Import ZifyBool ZifyNat.

(** *** Specification *)
(** The characters of an instruction line up to and including its last byte. *)
Definition line_start (l : asm_line) : list Z := 32 :: al_prefix l ++ 58 :: al_address l ++ flat_map (fun b => 32 :: b) (al_bytes l).

(** *** Proof *)
Lemma split_app {A} (a b c d : list A) : a ++ b = c ++ d -> (exists r, a = c ++ r /\ d = r ++ b) \/ (exists r, c = a ++ r /\ r <> [] /\ b = r ++ d).
Proof. revert c. induction a as [|x a IH]; intros [|y c] E; cbn [app] in E.
  - left. exists []. split; [reflexivity|]. symmetry. exact E.
  - right. exists (y :: c). split; [reflexivity|]. split; [discriminate|exact E].
  - left. exists (x :: a). split; [reflexivity|]. symmetry. exact E.
  - injection E as -> E. destruct (IH c E) as [(r & -> & ->)|(r & -> & N & ->)]; [left|right]; exists r; auto. Qed.
Lemma split_once_none c s : ~ In c s -> snd (split_once c s) = None.
Proof. induction s as [|x s IH]; intros N; cbn [split_once]; [reflexivity|]. destruct (Z.eqb_spec x c) as [->|_]; [destruct N; left; reflexivity|]. destruct (split_once c s) as [a b]. cbn [snd] in *. apply IH. intros I. apply N. right; exact I. Qed.
Lemma before_double_last a : ~ In 32 a -> before_double (a ++ [32]) = a ++ [32].
Proof. induction a as [|c a IH]; intros N; [reflexivity|]. cbn [app]. destruct (a ++ [32]) as [|y s] eqn:E; [destruct a; discriminate|].
  change (before_double (c :: y :: s)) with (if (c =? 32) && (y =? 32) then [] else c :: before_double (y :: s)).
  rewrite (proj2 (Z.eqb_neq c 32)) by (intros ->; apply N; left; reflexivity). cbn [andb]. rewrite IH by (intros I; apply N; right; exact I). reflexivity. Qed.

Lemma parse_hex_quiet s e : parse_hex s = Err e -> e = ValueError.
Proof. unfold parse_hex. destruct (strip_spaces s) as [|c s']; [congruence|]. generalize (c :: s') as t, 0. induction t as [|x t IH]; intros acc H; cbn [parse_hex_from] in H; [discriminate|]. destruct (hex_digit x); [exact (IH _ H)|congruence]. Qed.

(** A line cut anywhere: no instruction, or one at the right address. *)
Lemma line_cut l part rest : asm_ok l -> asm_text l = part ++ rest ->
  match text_line part with Ok i => address i = al_at l | Err e => e = IndexError \/ e = ValueError end.
Proof. intros ((P1 & P2) & A & L & B & C) E. unfold asm_text in E. set (tl := flat_map (fun b => 32 :: b) (al_bytes l) ++ _) in E.
  change (32 :: al_prefix l ++ 58 :: al_address l ++ tl) with ((32 :: al_prefix l) ++ 58 :: al_address l ++ tl) in E. symmetry in E.
  assert (N58 : ~ In 58 (32 :: al_prefix l)) by (intros [X|X]; [discriminate|auto]).
  destruct (split_app _ _ _ _ E) as [(r & -> & E1)|(r & E1 & _ & _)].
  2: { unfold text_line. rewrite split_once_none; [left; reflexivity|]. intros I. apply N58. rewrite E1. apply in_or_app. left; exact I. }
  destruct r as [|x r]; [unfold text_line; rewrite app_nil_r, split_once_none by exact N58; left; reflexivity|]. cbn [app] in E1. injection E1 as <- E1.
  unfold text_line. rewrite split_once_at by exact N58. cbn [snd].
  assert (NA : ~ In 32 (al_address l)) by (apply hexes_notin; [exact (hex_text_hexes _ _ A)|lia]). symmetry in E1.
  destruct (split_app _ _ _ _ E1) as [(r2 & -> & E2)|(r2 & E2 & _ & _)].
  2: { assert (Nr : ~ In 32 r) by (intros I; apply NA; rewrite E2; apply in_or_app; left; exact I). rewrite before_double_none by exact Nr. pose proof (split_once_none 32 r Nr) as S. destruct (split_once 32 r) as [a b]. cbn [snd] in S. subst b. left; reflexivity. }
  destruct r2 as [|y r2]. { rewrite app_nil_r, before_double_none by exact NA. pose proof (split_once_none 32 _ NA) as S. destruct (split_once 32 (al_address l)) as [a b]. cbn [snd] in S. subst b. left; reflexivity. }
  destruct (al_bytes l) as [|b0 bs] eqn:Eb; [discriminate L|]. inversion B as [|? v0 ? w0 [L0 B0] F0]; subst. apply byte_two in B0; [|exact L0]. destruct B0 as (x0 & y0 & d0 & e0 & -> & X0 & Y0 & _).
  subst tl. cbn [flat_map app] in E2. injection E2 as <- E2.
  assert (Bd : exists q, before_double (al_address l ++ 32 :: r2) = al_address l ++ 32 :: q).
  { destruct r2 as [|z r2]; [exists []; apply before_double_last; exact NA|]. cbn [app] in E2. injection E2 as <- E2. pose proof (hex_not_32 _ _ X0). exists (before_double (x0 :: r2)). apply before_double_step; assumption. }
  destruct Bd as (q & ->). rewrite split_once_at by exact NA. rewrite (int16_hex _ _ A). cbn [bind]. destruct (parse_hex (reverse_endianess_str q)) eqn:P; cbn [bind]; [reflexivity|]. right. exact (parse_hex_quiet _ _ P). Qed.

(** Behind the last byte nothing is missing. *)
Lemma text_line_blank l : asm_ok l -> text_line (line_start l ++ [32]) = Ok (asm_encoding l, al_at l).
Proof.
  intros ((P1 & P2) & A & L & B & C). replace (line_start l ++ [32]) with (32 :: al_prefix l ++ 58 :: al_address l ++ flat_map (fun b => 32 :: b) (al_bytes l) ++ [32]) by (unfold line_start; cbn [app]; rewrite <- !app_assoc; cbn [app]; rewrite <- !app_assoc; reflexivity). unfold text_line, asm_encoding.
  destruct l as [pre addr bytes comment at_ values]; cbn [al_prefix al_address al_bytes al_comment al_at al_values] in *.
  change (32 :: pre ++ 58 :: ?r) with ((32 :: pre) ++ 58 :: r).
  change (32 :: (pre ++ 58 :: ?r)) with ((32 :: pre) ++ 58 :: r).
  rewrite split_once_at by (intros [X|X]; [discriminate | auto]). cbn [snd].
  destruct bytes as [|b0 [|b1 [|b2 [|b3 [|]]]]]; try discriminate.
  inversion B as [|? v0 ? w0 [L0 B0] F0]; subst. inversion F0 as [|? v1 ? w1 [L1 B1] F1]; subst.
  inversion F1 as [|? v2 ? w2 [L2 B2] F2]; subst. inversion F2 as [|? v3 ? w3 [L3 B3] F3]; subst. inversion F3; subst.
  apply byte_two in B0 as (x0 & y0 & d0 & e0 & -> & X0 & Y0 & ->); [|auto].
  apply byte_two in B1 as (x1 & y1 & d1 & e1 & -> & X1 & Y1 & ->); [|auto].
  apply byte_two in B2 as (x2 & y2 & d2 & e2 & -> & X2 & Y2 & ->); [|auto].
  apply byte_two in B3 as (x3 & y3 & d3 & e3 & -> & X3 & Y3 & ->); [|auto].
  cbn [flat_map app].
  pose proof (hex_text_hexes _ _ A) as AH.
  assert (NA : ~ In 32 addr) by (apply hexes_notin; auto; lia).
  pose proof (hex_not_32 _ _ X0) as NX0. pose proof (hex_not_32 _ _ Y0) as NY0. pose proof (hex_not_32 _ _ X1) as NX1. pose proof (hex_not_32 _ _ Y1) as NY1.
  pose proof (hex_not_32 _ _ X2) as NX2. pose proof (hex_not_32 _ _ Y2) as NY2. pose proof (hex_not_32 _ _ X3) as NX3. pose proof (hex_not_32 _ _ Y3) as NY3.
  rewrite before_double_step by auto.
  change (x0 :: y0 :: 32 :: ?r) with ([x0; y0] ++ 32 :: r).
  rewrite before_double_step by (cbn; intuition).
  change (x1 :: y1 :: 32 :: ?r) with ([x1; y1] ++ 32 :: r).
  rewrite before_double_step by (cbn; intuition).
  change (x2 :: y2 :: 32 :: ?r) with ([x2; y2] ++ 32 :: r).
  rewrite before_double_step by (cbn; intuition).
  assert (E : before_double [x3; y3; 32] = [x3; y3; 32]) by (change [x3; y3; 32] with ([x3; y3] ++ [32]); apply before_double_last; cbn; intuition).
  rewrite E. cbn [app]. rewrite split_once_at by auto.
  rewrite (int16_hex _ _ A). cbn [bind].
  assert (S : strip_spaces [x0; y0; 32; x1; y1; 32; x2; y2; 32; x3; y3; 32] = [x0; y0; x1; y1; x2; y2; x3; y3]).
  { unfold strip_spaces. cbn [filter]. change (is_space 32) with true.
    rewrite (hex_not_space _ _ X0), (hex_not_space _ _ Y0), (hex_not_space _ _ X1), (hex_not_space _ _ Y1),
      (hex_not_space _ _ X2), (hex_not_space _ _ Y2), (hex_not_space _ _ X3), (hex_not_space _ _ Y3). reflexivity. }
  unfold reverse_endianess_str. rewrite S.
  change (slice [x0; y0; x1; y1; x2; y2; x3; y3] 6 8 ++ slice [x0; y0; x1; y1; x2; y2; x3; y3] 4 6 ++ slice [x0; y0; x1; y1; x2; y2; x3; y3] 2 4 ++ slice [x0; y0; x1; y1; x2; y2; x3; y3] 0 2)
    with [x3; y3; x2; y2; x1; y1; x0; y0].
  unfold parse_hex.
  assert (S2 : strip_spaces [x3; y3; x2; y2; x1; y1; x0; y0] = [x3; y3; x2; y2; x1; y1; x0; y0]).
  { unfold strip_spaces. cbn [filter].
    rewrite (hex_not_space _ _ X0), (hex_not_space _ _ Y0), (hex_not_space _ _ X1), (hex_not_space _ _ Y1),
      (hex_not_space _ _ X2), (hex_not_space _ _ Y2), (hex_not_space _ _ X3), (hex_not_space _ _ Y3). reflexivity. }
  rewrite S2. cbn [parse_hex_from].
  rewrite (hex_char_digit _ _ X3), (hex_char_digit _ _ Y3), (hex_char_digit _ _ X2), (hex_char_digit _ _ Y2),
    (hex_char_digit _ _ X1), (hex_char_digit _ _ Y1), (hex_char_digit _ _ X0), (hex_char_digit _ _ Y0).
  cbn [bind fold_right]. do 2 f_equal. lia.
Qed.

Lemma line_cut_late l more rest : asm_ok l -> asm_text l = (line_start l ++ more) ++ rest -> text_line (line_start l ++ more) = Ok (asm_encoding l, al_at l).
Proof. intros O E. assert (St : asm_text l = line_start l ++ match al_comment l with Some c => 32 :: 32 :: c | None => [] end) by (unfold asm_text, line_start; cbn [app]; rewrite <- !app_assoc; cbn [app]; rewrite <- !app_assoc; reflexivity).
  rewrite St, <- app_assoc in E. apply app_inv_head in E. pose proof O as (X1 & X2 & X3 & X4 & X5).
  assert (T : forall c, (forall d, c = Some d -> ~ In 10 d) -> text_line (line_start l ++ match c with Some c => 32 :: 32 :: c | None => [] end) = Ok (asm_encoding l, al_at l)).
  { intros c Hc. pose proof (text_line_asm (AsmLine (al_prefix l) (al_address l) (al_bytes l) c (al_at l) (al_values l))) as T. unfold asm_text in T. cbn [al_prefix al_address al_bytes al_comment al_at al_values] in T. unfold line_start. cbn [app]. rewrite <- !app_assoc. cbn [app]. rewrite <- !app_assoc. apply T.
    split; [exact X1|]. split; [exact X2|]. split; [exact X3|]. split; [exact X4|exact Hc]. }
  destruct more as [|m1 [|m2 more]].
  - apply (T None). discriminate.
  - destruct (al_comment l) as [c|]; [|discriminate E]. injection E as <- _. apply text_line_blank. exact O.
  - destruct (al_comment l) as [c|]; [|discriminate E]. injection E as <- <- E. apply (T (Some more)). intros d H. injection H as <-. intros I. apply (X5 c eq_refl). rewrite E. apply in_or_app. left; exact I. Qed.

Lemma lines_last s part : ~ In 10 part -> lines_from s part = match s ++ part with [] => [] | _ => [s ++ part] end.
Proof. revert s. induction part as [|c part IH]; intros s N; cbn [lines_from].
  - rewrite app_nil_r. destruct s; reflexivity.
  - unfold newline. replace (c =? 10) with false by (symmetry; apply Z.eqb_neq; intros ->; apply N; left; reflexivity). rewrite IH by (intros I; apply N; right; exact I). rewrite <- app_assoc. reflexivity. Qed.
Lemma lines_part ls part : Forall (fun l => ~ In 10 l) ls -> ~ In 10 part -> lines (file_of ls ++ part) = map (fun l => l ++ [10]) ls ++ match part with [] => [] | _ => [part] end.
Proof. intros F N. unfold lines. induction F as [|l ls Hl F IH]; cbn [file_of flat_map map app]; [rewrite (lines_last [] part N); reflexivity|].
  change (flat_map (fun l => l ++ [10]) ls) with (file_of ls). rewrite <- !app_assoc. cbn [app]. rewrite lines_from_line by exact Hl. cbn [app]. rewrite IH. reflexivity. Qed.

Lemma foldM_step (f g : list inst -> text -> result (list inst)) l : (forall a x, f a x = g a x) -> forall a, foldM f l a = foldM g l a.
Proof. intros H. induction l as [|x l IH]; intros a; cbn [foldM]; [reflexivity|]. rewrite H. destruct (g a x); cbn [bind]; auto. Qed.
Lemma item_nl x : asm_item_ok x -> ~ In 10 (asm_item_text x).
Proof. destruct x as [l|s]; cbn [asm_item_ok asm_item_text]; [apply asm_text_nl|intros [H _]; exact H]. Qed.
Lemma read_part items x part rest : Forall asm_item_ok items -> asm_item_ok x -> asm_item_text x = part ++ rest ->
  text_read_instructions (file_of (map asm_item_text items) ++ part) =
  match part, x with [], _ => Ok (asm_insts items) | _, inr _ => Ok (asm_insts items) | _, inl _ => let* i := text_line part in Ok (asm_insts items ++ [i]) end.
Proof. intros F O E. assert (Np : ~ In 10 part) by (intros I; apply (item_nl x O); rewrite E; apply in_or_app; left; exact I).
  assert (Fn : Forall (fun l => ~ In 10 l) (map asm_item_text items)) by (rewrite Forall_map; eapply Forall_impl; [|exact F]; intros y; apply item_nl).
  pose proof (text_read_items items F) as R. unfold text_read_instructions in *. rewrite lines_file in R by exact Fn. rewrite lines_part by assumption. rewrite foldM_app, R. cbn [bind].
  destruct part as [|c part]; [reflexivity|]. match goal with |- _ = ?r => change (foldM inst_step [c :: part] (asm_insts items) = r) end. cbn [foldM].
  assert (Rs : rstrip_nl (c :: part) = c :: part). { rewrite <- rstrip_nl_nl. apply rstrip_nl_line. exact Np. }
  destruct x as [l|s]; cbn [asm_item_ok asm_item_text] in *.
  - unfold asm_text in E. injection E as <- _. rewrite inst_step_blank by eauto. rewrite Rs. destruct (text_line (32 :: part)); reflexivity.
  - destruct O as [_ O]. rewrite E in O. specialize (O c eq_refl). rewrite inst_step_other; [reflexivity|]. intros (r & X). congruence. Qed.

Lemma cut_items items : Forall asm_item_ok items -> forall cut rest, file_of (map asm_item_text items) = cut ++ rest -> rest <> [] ->
  exists items1 x items2 part rest', items = items1 ++ x :: items2 /\ cut = file_of (map asm_item_text items1) ++ part /\ asm_item_text x = part ++ rest'.
Proof. induction 1 as [|x items O F IH]; intros cut rest E N; [destruct cut, rest; try discriminate E; congruence|].
  cbn [map file_of flat_map] in E. change (flat_map (fun l => l ++ [10]) (map asm_item_text items)) with (file_of (map asm_item_text items)) in E. rewrite <- app_assoc in E. symmetry in E.
  destruct (split_app _ _ _ _ E) as [(r & -> & E1)|(r & E1 & _ & _)].
  - destruct r as [|y r]; [exists [], x, items, (asm_item_text x), []; rewrite !app_nil_r; auto|]. cbn [app] in E1. injection E1 as <- E1. destruct (IH r rest E1 N) as (i1 & x1 & i2 & part & rest' & -> & -> & E2).
    exists (x :: i1), x1, i2, part, rest'. split; [reflexivity|]. split; [|exact E2]. cbn [map file_of flat_map]. rewrite <- !app_assoc. reflexivity.
  - exists [], x, items, cut, r. auto. Qed.

(** C161.  A listing cut anywhere: IndexError, ValueError, or the instructions of the complete lines, followed by at most one more, at the right address. *)
Theorem C161_cut_partial : forall items cut rest, Forall asm_item_ok items -> file_of (map asm_item_text items) = cut ++ rest ->
  match text_read_instructions cut with
  | Ok l => exists n, l = firstn n (asm_insts items) \/ exists e e' a, l = firstn n (asm_insts items) ++ [(e, a)] /\ nth_error (asm_insts items) n = Some (e', a)
  | Err e => e = IndexError \/ e = ValueError
  end.
Proof. intros items cut rest F E. destruct rest as [|r0 rest].
  { rewrite app_nil_r in E. subst cut. rewrite text_read_items by exact F. exists (length (asm_insts items)). left. symmetry. apply firstn_all. }
  destruct (cut_items items F cut (r0 :: rest) E ltac:(discriminate)) as (i1 & x & i2 & part & rest' & -> & -> & Ex). apply Forall_app in F. destruct F as [F1 F2]. inversion F2 as [|? ? Ox _]; subst.
  rewrite (read_part i1 x part rest' F1 Ox Ex). assert (Eq : asm_insts (i1 ++ x :: i2) = asm_insts i1 ++ asm_insts (x :: i2)) by apply flat_map_app. rewrite Eq. clear Eq.
  assert (D : exists n, asm_insts i1 = firstn n (asm_insts i1 ++ asm_insts (x :: i2)) \/ exists e e' a, asm_insts i1 = firstn n (asm_insts i1 ++ asm_insts (x :: i2)) ++ [(e, a)] /\ nth_error (asm_insts i1 ++ asm_insts (x :: i2)) n = Some (e', a)).
  { exists (length (asm_insts i1)). left. rewrite firstn_app, Nat.sub_diag, firstn_all. cbn [firstn]. rewrite app_nil_r. reflexivity. }
  destruct part as [|c part]; [exact D|]. destruct x as [l|s]; [|exact D]. pose proof (line_cut l (c :: part) rest' Ox Ex) as H. destruct (text_line (c :: part)) as [i|e]; cbn [bind]; [|exact H].
  exists (length (asm_insts i1)). right. exists (fst i), (asm_encoding l), (al_at l). split.
  - rewrite firstn_app, Nat.sub_diag, firstn_all. cbn [firstn]. rewrite app_nil_r, <- H. destruct i; reflexivity.
  - rewrite nth_error_app2 by lia. rewrite Nat.sub_diag. reflexivity. Qed.
Print Assumptions C161_cut_partial.
(** If the last line has all its bytes, nothing is wrong. *)
Theorem C161_bytes_complete : forall items l more rest, Forall asm_item_ok items -> asm_ok l -> asm_text l = (line_start l ++ more) ++ rest ->
  text_read_instructions (file_of (map asm_item_text items) ++ line_start l ++ more) = Ok (asm_insts (items ++ [inl l])).
Proof. intros items l more rest F O E. rewrite (read_part items (inl l) (line_start l ++ more) rest F O E). rewrite (line_cut_late l more rest O E). unfold line_start. cbn [app bind]. unfold asm_insts. rewrite flat_map_app. reflexivity. Qed.
Print Assumptions C161_bytes_complete.
(** What exactly a cut line is read as.  [m] characters are left behind its address, three for
    every complete byte; the bytes that are missing count as zero, and the first digit of a
    byte cut in two as its last one. *)
Definition low (l : asm_line) (k : nat) : Z := fold_right (fun b n => b + 256 * n) 0 (firstn k (al_values l)).
Definition behind (l : asm_line) (part : list Z) : Z := Z.of_nat (length part) - Z.of_nat (length (al_prefix l) + length (al_address l) + 2).
Definition cut_line (l : asm_line) (m : Z) : result inst :=
  if m <=? 0 then Err IndexError
  else if m =? 1 then Err ValueError
  else if 12 <=? m then Ok (asm_encoding l, al_at l)
  else let k := Z.to_nat (m / 3) in
    Ok (low l k + (if m mod 3 =? 2 then 256 ^ (m / 3) * (nth k (al_values l) 0 / 16) else 0), al_at l).
Lemma hex_digit_range c d : hex_char c d -> 0 <= d < 16.
Proof. destruct 1; lia. Qed.
Lemma top_digit k w : 0 <= w < 16 -> (16 * k + w) / 16 = k.
Proof. intros H. rewrite (Z.mul_comm 16 k), Z.div_add_l, Z.div_small; lia. Qed.
Lemma early l part rest : asm_ok l -> asm_text l = part ++ rest -> behind l part <= 0 -> text_line part = Err IndexError.
Proof. intros ((P1 & P2) & A & _) E Bh. unfold asm_text in E. set (tl := flat_map (fun b => 32 :: b) (al_bytes l) ++ _) in E. unfold behind in Bh.
  change (32 :: al_prefix l ++ 58 :: al_address l ++ tl) with ((32 :: al_prefix l) ++ 58 :: al_address l ++ tl) in E. symmetry in E.
  assert (N58 : ~ In 58 (32 :: al_prefix l)) by (intros [X|X]; [discriminate|auto]).
  destruct (split_app _ _ _ _ E) as [(r & -> & E1)|(r & E1 & _ & _)].
  2: { unfold text_line. rewrite split_once_none; [reflexivity|]. intros I. apply N58. rewrite E1. apply in_or_app. left; exact I. }
  destruct r as [|x r]; [unfold text_line; rewrite app_nil_r, split_once_none by exact N58; reflexivity|]. cbn [app] in E1. injection E1 as <- E1. cbn [app length] in Bh. rewrite app_length in Bh. cbn [length] in Bh.
  unfold text_line. rewrite split_once_at by exact N58. cbn [snd].
  assert (NA : ~ In 32 (al_address l)) by (apply hexes_notin; [exact (hex_text_hexes _ _ A)|lia]). symmetry in E1.
  destruct (split_app _ _ _ _ E1) as [(r2 & -> & E2)|(r2 & E2 & _ & _)].
  - rewrite app_length in Bh. destruct r2 as [|y r2]; [|cbn [length] in Bh; lia]. rewrite app_nil_r, before_double_none by exact NA. pose proof (split_once_none 32 _ NA) as S. destruct (split_once 32 (al_address l)) as [a b]. cbn [snd] in S. subst b. reflexivity.
  - assert (Nr : ~ In 32 r) by (intros I; apply NA; rewrite E2; apply in_or_app; left; exact I). rewrite before_double_none by exact Nr. pose proof (split_once_none 32 r Nr) as S. destruct (split_once 32 r) as [a b]. cbn [snd] in S. subst b. reflexivity. Qed.
(** [r] without two blanks in a row is kept by the split at two blanks. *)
Fixpoint single (r : list Z) : bool := match r with x :: (y :: _) as r' => negb ((x =? 32) && (y =? 32)) && single r' | _ => true end.
Lemma before_double_single r : single r = true -> before_double r = r.
Proof. induction r as [|x [|y r] IH]; intros S; [reflexivity|reflexivity|]. change (negb ((x =? 32) && (y =? 32)) && single (y :: r) = true) in S. apply andb_true_iff in S as [S1 S2]. change (before_double (x :: y :: r)) with (if (x =? 32) && (y =? 32) then [] else x :: before_double (y :: r)). apply negb_true_iff in S1. rewrite S1, (IH S2). reflexivity. Qed.
Lemma single_app a r : ~ In 32 a -> single r = true -> single (a ++ r) = true.
Proof. induction a as [|x a IH]; intros N S; [exact S|]. cbn [app]. specialize (IH (fun I => N (or_intror I)) S). destruct (a ++ r) as [|y t]; [reflexivity|]. change (negb ((x =? 32) && (y =? 32)) && single (y :: t) = true). rewrite IH, (proj2 (Z.eqb_neq x 32)); [reflexivity|]. intros ->. apply N. left. reflexivity. Qed.
Lemma text_line_at l q : asm_ok l -> single (32 :: q) = true -> text_line (32 :: al_prefix l ++ 58 :: al_address l ++ 32 :: q) = let* e := parse_hex (reverse_endianess_str q) in Ok (e, al_at l).
Proof. intros ((P1 & P2) & A & _) S. assert (NA : ~ In 32 (al_address l)) by (apply hexes_notin; [exact (hex_text_hexes _ _ A)|lia]). unfold text_line. change (32 :: al_prefix l ++ 58 :: ?r) with ((32 :: al_prefix l) ++ 58 :: r). rewrite split_once_at by (intros [X|X]; [discriminate|auto]). cbn [snd].
  rewrite before_double_single by (apply single_app; assumption). rewrite split_once_at by exact NA. rewrite (int16_hex _ _ A). reflexivity. Qed.
Lemma line_cut_exactly l part rest : asm_ok l -> asm_text l = part ++ rest -> text_line part = cut_line l (behind l part).
Proof. intros O E. unfold cut_line. destruct (Z.leb_spec (behind l part) 0) as [B0|B0]; [apply (early l part rest O E B0)|]. pose proof O as (_ & _ & L & B & _).
  assert (Hd : asm_text l = (32 :: al_prefix l ++ 58 :: al_address l) ++ flat_map (fun b => 32 :: b) (al_bytes l) ++ match al_comment l with Some c => 32 :: 32 :: c | None => [] end) by (unfold asm_text; cbn [app]; rewrite <- !app_assoc; reflexivity).
  rewrite Hd in E. symmetry in E. destruct (split_app _ _ _ _ E) as [(r & Ep & E1)|(r & E1 & Nr & _)].
  2: { exfalso. apply (f_equal (@length Z)) in E1. rewrite app_length in E1. cbn [length] in E1. rewrite app_length in E1. cbn [length] in E1. unfold behind in B0. destruct r; [congruence|cbn [length] in E1; lia]. }
  assert (Bm : behind l part = Z.of_nat (length r)). { unfold behind. rewrite Ep, app_length. cbn [length]. rewrite app_length. cbn [length]. lia. } rewrite Bm in *. clear Bm.
  destruct (Z.leb_spec 12 (Z.of_nat (length r))) as [B12|B12].
  - assert (Ls : length (flat_map (fun b => 32 :: b) (al_bytes l)) = 12%nat). { destruct (al_bytes l) as [|b0 [|b1 [|b2 [|b3 [|]]]]]; try discriminate L. inversion B as [|? ? ? ? [L0 _] F0]; subst. inversion F0 as [|? ? ? ? [L1 _] F1]; subst. inversion F1 as [|? ? ? ? [L2 _] F2]; subst. inversion F2 as [|? ? ? ? [L3 _] F3]; subst. cbn [flat_map]. repeat (rewrite app_length; cbn [length]). cbn [length]. lia. }
    symmetry in E1. destruct (split_app _ _ _ _ E1) as [(r2 & Er & E2)|(r2 & E2 & Nr2 & _)]; [|exfalso; apply (f_equal (@length Z)) in E2; rewrite app_length, Ls in E2; destruct r2; [congruence|cbn [length] in E2; lia]].
    assert (Ep' : part = line_start l ++ r2) by (rewrite Ep, Er; unfold line_start; cbn [app]; rewrite <- !app_assoc; cbn [app]; rewrite <- !app_assoc; reflexivity).
    replace (Z.of_nat (length r) =? 1) with false by lia. rewrite Ep'. apply (line_cut_late l r2 rest O). rewrite <- Ep', Hd. symmetry. exact E.
  - destruct l as [pre addr bytes comment at_ values]; cbn [al_prefix al_address al_bytes al_comment al_at al_values] in *. destruct bytes as [|b0 [|b1 [|b2 [|b3 [|]]]]]; try discriminate L.
    inversion B as [|? v0 ? w0 [L0 B0'] F0]; subst. inversion F0 as [|? v1 ? w1 [L1 B1'] F1]; subst. inversion F1 as [|? v2 ? w2 [L2 B2'] F2]; subst. inversion F2 as [|? v3 ? w3 [L3 B3'] F3]; subst. inversion F3; subst.
    apply byte_two in B0' as (x0 & y0 & d0 & e0 & -> & X0 & Y0 & ->); [|auto]. apply byte_two in B1' as (x1 & y1 & d1 & e1 & -> & X1 & Y1 & ->); [|auto].
    apply byte_two in B2' as (x2 & y2 & d2 & e2 & -> & X2 & Y2 & ->); [|auto]. apply byte_two in B3' as (x3 & y3 & d3 & e3 & -> & X3 & Y3 & ->); [|auto].
    assert (Er : r = firstn (length r) [32; x0; y0; 32; x1; y1; 32; x2; y2; 32; x3; y3]).
    { assert (Fr : firstn (length r) (r ++ rest) = r) by (rewrite firstn_app, Nat.sub_diag, firstn_all, firstn_O; apply app_nil_r). rewrite <- E1 in Fr. rewrite <- Fr at 1. change (flat_map (fun b => 32 :: b) [[x0; y0]; [x1; y1]; [x2; y2]; [x3; y3]]) with [32; x0; y0; 32; x1; y1; 32; x2; y2; 32; x3; y3].
      rewrite firstn_app. replace (length r - _)%nat with 0%nat by (cbn [length]; lia). rewrite firstn_O. apply app_nil_r. }
    remember (length r) as n eqn:En. assert (Hn : (n = 1 \/ n = 2 \/ n = 3 \/ n = 4 \/ n = 5 \/ n = 6 \/ n = 7 \/ n = 8 \/ n = 9 \/ n = 10 \/ n = 11)%nat) by lia. clear En E1 E Hd B0 B12 L.
    pose proof (hex_not_32 _ _ X0) as NX0. pose proof (hex_not_32 _ _ Y0) as NY0. pose proof (hex_not_32 _ _ X1) as NX1. pose proof (hex_not_32 _ _ Y1) as NY1.
    pose proof (hex_not_32 _ _ X2) as NX2. pose proof (hex_not_32 _ _ Y2) as NY2. pose proof (hex_not_32 _ _ X3) as NX3. pose proof (hex_not_32 _ _ Y3) as NY3.
    pose proof (hex_not_space _ _ X0) as SX0. pose proof (hex_not_space _ _ Y0) as SY0. pose proof (hex_not_space _ _ X1) as SX1. pose proof (hex_not_space _ _ Y1) as SY1.
    pose proof (hex_not_space _ _ X2) as SX2. pose proof (hex_not_space _ _ Y2) as SY2. pose proof (hex_not_space _ _ X3) as SX3. pose proof (hex_not_space _ _ Y3) as SY3.
    pose proof (hex_digit_range _ _ X0) as RX0. pose proof (hex_digit_range _ _ X1) as RX1. pose proof (hex_digit_range _ _ X2) as RX2. pose proof (hex_digit_range _ _ X3) as RX3.
    pose proof (hex_digit_range _ _ Y0) as RY0. pose proof (hex_digit_range _ _ Y1) as RY1. pose proof (hex_digit_range _ _ Y2) as RY2. pose proof (hex_digit_range _ _ Y3) as RY3.
    apply hex_char_digit in X0, Y0, X1, Y1, X2, Y2, X3, Y3.
    apply Z.eqb_neq in NX0, NY0, NX1, NY1, NX2, NY2, NX3, NY3.
    clear L0 L1 L2 L3 F0 F1 F2 F3 B.
    destruct Hn as [->|[->|[->|[->|[->|[->|[->|[->|[->|[->| ->]]]]]]]]]]; subst r; cbn [firstn];
      (match goal with |- text_line ((32 :: pre ++ 58 :: addr) ++ 32 :: ?q) = _ => pose proof (text_line_at _ q O) as T; cbn [al_prefix al_address al_at] in T; replace ((32 :: pre ++ 58 :: addr) ++ 32 :: q) with (32 :: pre ++ 58 :: addr ++ 32 :: q) by (cbn [app]; rewrite <- app_assoc; reflexivity); rewrite T; clear T end;
       [|cbn [single]; rewrite ?NX0, ?NY0, ?NX1, ?NY1, ?NX2, ?NY2, ?NX3, ?NY3, ?andb_false_r; reflexivity]);
      unfold reverse_endianess_str, parse_hex, strip_spaces; cbn [filter]; change (is_space 32) with true; rewrite ?SX0, ?SY0, ?SX1, ?SY1, ?SX2, ?SY2, ?SX3, ?SY3; cbn [negb]; cbv iota; cbn [slice Nat.sub firstn skipn app filter]; unfold slice; cbn [Nat.sub firstn skipn app filter]; rewrite ?SX0, ?SY0, ?SX1, ?SY1, ?SX2, ?SY2, ?SX3, ?SY3; cbn [negb]; cbv iota; cbn [parse_hex_from]; rewrite ?X0, ?Y0, ?X1, ?Y1, ?X2, ?Y2, ?X3, ?Y3; cbn [parse_hex_from]; rewrite ?X0, ?Y0, ?X1, ?Y1, ?X2, ?Y2, ?X3, ?Y3; cbn [parse_hex_from bind]; unfold low; cbn [al_values al_at].
    all: try reflexivity.
    all: match goal with |- context [Z.of_nat ?n =? 1] => change (Z.of_nat n =? 1) with false end; cbv iota.
    all: match goal with |- context [Z.of_nat ?n / 3] => let k := eval compute in (Z.of_nat n / 3) in change (Z.of_nat n / 3) with k; let b := eval compute in (Z.of_nat n mod 3 =? 2) in change (Z.of_nat n mod 3 =? 2) with b; let j := eval compute in (Z.to_nat k) in change (Z.to_nat k) with j end; cbv iota; cbn [firstn fold_right nth]; f_equal; f_equal; rewrite ?(top_digit d0 e0 RY0), ?(top_digit d1 e1 RY1), ?(top_digit d2 e2 RY2), ?(top_digit d3 e3 RY3); change (256 ^ 0) with 1; change (256 ^ 1) with 256; change (256 ^ 2) with 65536; change (256 ^ 3) with 16777216; clear; ring. Qed.
Theorem C161_exactly : forall items l part rest, Forall asm_item_ok items -> asm_ok l -> asm_text l = part ++ rest -> part <> [] ->
  text_read_instructions (file_of (map asm_item_text items) ++ part) = let* i := cut_line l (behind l part) in Ok (asm_insts items ++ [i]).
Proof. intros items l part rest F O E N. rewrite (read_part items (inl l) part rest F O E). destruct part as [|c part]; [congruence|]. rewrite (line_cut_exactly l _ rest O E). reflexivity. Qed.
Print Assumptions C161_exactly.
(** But a line cut within its bytes is read as another instruction. *)
Theorem C161_cut_refuted : exists items cut rest l, Forall asm_item_ok items /\ file_of (map asm_item_text items) = cut ++ rest /\ text_read_instructions cut = Ok l /\ exists i, In i l /\ ~ In i (asm_insts items).
Proof. exists [inr [68; 105; 115]; inl C69_line1; inr []; inl C69_line2]. exists (firstn 31 (file_of (map asm_item_text [inr [68; 105; 115]; inl C69_line1; inr []; inl C69_line2]))). eexists _, _.
  split; [exact (proj1 C69_example)|]. split; [symmetry; apply firstn_skipn|]. split; [vm_compute; reflexivity|]. exists (0xbd87f0, 0x107ec). split; [left; reflexivity|]. vm_compute. intuition discriminate. Qed.
Print Assumptions C161_cut_refuted.
(** The cuts of the example below, by the theorem. *)
Example C161_exactly_example : map (cut_line C69_line1) [0; 1; 2; 3; 4; 5; 12] = [Err IndexError; Err ValueError; Ok (0xf, 0x107ec); Ok (0xf0, 0x107ec); Ok (0xf0, 0x107ec); Ok (0x8f0, 0x107ec); Ok (0xe8bd87f0, 0x107ec)].
Proof. reflexivity. Qed.
Example C161_example : let items := [inr [68; 105; 115]; inl C69_line1; inr []; inl C69_line2] in let file := file_of (map asm_item_text items) in Forall asm_item_ok items /\
  map (fun n => text_read_instructions (firstn n file)) [20%nat; 22%nat; 23%nat; 25%nat; 34%nat; 60%nat] =
    [Err IndexError; Err IndexError; Err ValueError; Ok [(0xf0, 0x107ec)]; Ok [(0xe8bd87f0, 0x107ec)]; Ok [(0xe8bd87f0, 0x107ec); (0x0e000000, 0x10)]].
Proof. split; [exact (proj1 C69_example)|]. vm_compute. reflexivity. Qed.
